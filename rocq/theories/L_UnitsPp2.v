(** Projection pursuit of the same data in other units: new data, quantile
    regression. *)

From Coq Require Import String Reals List Arith ZArith Bool Lia Lra.
Import List. Import ListNotations.
From Verif Require Import Num Err Vec VecR L_Mat L_Lin L_Matmul M_Utils M_Preproc M_Robcent L_Stats L_Scaling L_Scaling2 M_Dicomo M_Ipopt M_Snipls M_Ppdire
  S_Stats S_Regress S_Dicomo S_Units L_Snipls L_Snipls2 S_Ppdire L_Pp L_Pp2 L_Pp4 OrdR L_OrderSc L_OrderSn L_Units L_UnitsSn L_PpTot S_UnitsPp L_UnitsPp.
Import List. Open Scope R_scope.


Lemma new_units_l : forall (env : pp_env R) prm d n p a b c e X f q d2 m q' d2' m' k Xn, unit_centre (pp_center prm) -> pp_center_data prm = true -> pp_scale_data prm = true -> pp_trim prm = 0 -> direct_fit prm n p ->
  is_matrix n p X -> (2 <= n)%nat -> (1 <= p)%nat -> (1 <= pp_ncomp (with_h prm (f_h f)))%nat -> unit_change p a b -> 0 < c ->
  (forall j, (j < p)%nat -> has_spread (pscale (pp_center prm)) (column j X)) ->
  (f_y f = YNone \/ pp_regopt prm <> "quantile"%string /\ exists v, length v = n /\ has_response (f_y f) v /\ has_spread (pscale (pp_center prm)) v) ->
  pp_fit env prm d X f = (q, d2, Ok m) -> pp_fit env prm d (units a b X) (unit_fkw c e f) = (q', d2', Ok m') -> is_matrix k p Xn -> (1 <= k)%nat ->
  pp_transform m' (units a b Xn) = pp_transform m Xn /\
  (f_y f <> YNone -> exists v, pp_predict m Xn = Ok v /\ pp_predict m' (units a b Xn) = Ok (affine c e v)).
Proof.
  intros env prm d n p a b c e X f q d2 m q' d2' m' k Xn Hc Hcd Hsd Ht Hdf W Hn Hp Hh Hu Hpos HX HY E E' WN Hk.
  pose proof (units_fit_l env prm d n p a b c e X f Hc Hcd Hsd Ht Hdf W Hn Hp Hh Hu Hpos HX HY) as HL. rewrite E, E' in HL. destruct HL as (-> & -> & (HC & HR) & _).
  assert (Eq : q = with_h prm (f_h f)).
  { pose proof (fit_inv env prm d X f q d2 m E) as HI. decompose record HI. subst. unfold with_whitening. destruct (with_h_fields prm (f_h f)) as (F1 & _). destruct Hdf as [F2 _]. rewrite F1, F2. reflexivity. }
  pose proof Hu as (La & Lb & _). assert (WU : wf k p (units a b Xn)) by (apply units_wf; auto).
  destruct (plain_run env prm d X f q d2 m n p W Hdf E ltac:(rewrite Eq; lia)) as (_ & _ & _ & most & s & mX & sX & Xs & yi & cs & yc & Rt & ym & _ & Es & Esc & _ & EY & _ & _ & _ & _ & _ & Em & Hym).
  assert (Q : pp_center q = pp_center prm /\ pp_center_data q = true /\ pp_scale_data q = true /\ pp_trim q = 0) by (rewrite Eq; unfold with_h; destruct (f_h f); auto).
  destruct Q as (Q1 & Q2 & Q3 & Q4).
  assert (Hs : s = pscale (pp_center prm) /\ unit_scale s).
  { unfold scale_name in Es. rewrite Q1, Q3 in Es. destruct Hc as [H | H]; rewrite H in *; apply Ok_inj in Es; subst s; (split; [reflexivity|]); unfold unit_scale; auto. }
  destruct Hs as [-> Hs]. unfold st_scale in Esc. rewrite Q1, Q2, Q4 in Esc.
  destruct (pp_scaled_units env (pp_center prm) _ n p a b X W Hn Hp Hc Hs Hu HX) as (mm & v & Z & E1 & _ & Lm & Lv & _ & Hv & _). rewrite E1 in Esc. apply Ok_inj in Esc. injection Esc as <- <- <-.
  destruct HC as (C1 & C2 & C3 & C4 & C5 & C6 & C7 & C8 & C9 & C10). subst m. cbn [pm_p pm_R pm_loc pm_sca pm_2d pm_y] in *.
  split.
  - unfold pp_transform. rewrite C1, C4, C8, C9, C10. cbn [pm_p pm_R pm_loc pm_sca pm_2d]. rewrite (wf_ncols k p Xn), (wf_ncols k p (units a b Xn)) by auto. rewrite Nat.eqb_refl. cbn [negb].
    rewrite (unit_scale_data a b p k) by auto. rewrite Hcd. cbn [negb andb]. reflexivity.
  - intros HN. destruct HY as [HY|[_ HN2]]; [contradiction|]. destruct yi as [[y my]|].
    + destruct Hym as (Ly & Hyf & ic & b0 & yfit & r & EF & EM). subst ym. unfold pp_predict. cbn [pm_y pm_p]. destruct (pm_y m') as [y'|]; [|contradiction]. destruct HR as (W1 & W2 & R1 & _ & _ & (i & R2 & R3) & _).
      cbn [ym_coef ym_intercept] in *. rewrite R2, R3, C1. rewrite (wf_ncols k p Xn), (wf_ncols k p (units a b Xn)) by auto. rewrite Nat.eqb_refl. cbn [negb].
      rewrite La in W1, W2. rewrite (wf_ncols p _ _ W1), (wf_ncols p _ _ W2) by lia. destruct (pp_ncomp (with_h prm (f_h f)) =? 0)%nat eqn:E0; [apply Nat.eqb_eq in E0; lia|].
      eexists. split; [reflexivity|]. f_equal. pose proof (R1 (pp_ncomp (with_h prm (f_h f)) - 1)%nat ltac:(lia)) as RH. match goal with |- map _ (matvec _ ?z) = _ => replace z with (unit_coef a c (column (pp_ncomp (with_h prm (f_h f)) - 1) (of_cols p (map (fun q0 => snd (fst q0)) yc)))) by (symmetry; exact RH) end. rewrite (unit_matvec k p) by auto. unfold unit_icpt, affine. rewrite !map_map. apply map_ext. intros x. rnum. ring.
    + subst ym. exfalso. destruct HN2 as (v0 & _ & Hr & _). destruct (has_response_some _ _ _ _ _ _ _ EY Hr) as (y0 & my & HH). discriminate HH.
Qed.

(** ** quantile regression *)
Definition uq2 (a : list R) (c : R) (q : R * list R * list R) : R * list R * list R := (c * fst (fst q), map (Rmult c) (unit_coef a c (snd (fst q))), map (Rmult c) (snd q)).
Lemma matvec_scale : forall (M : list (list R)) c l, matvec M (map (Rmult c) l) = map (Rmult c) (matvec M l).
Proof.
  intros M c l. unfold matvec. rewrite map_map. apply map_ext. intros r. revert l. induction r as [|x r IH]; intros [|z l]; cbn [map]; rewrite ?dot_cons; [unfold dot; cbn; rnum; ring..|]. rewrite IH. ring.
Qed.
Lemma inner_coef_quantile : forall (env : pp_env R) prm y c t, pp_regopt prm = "quantile"%string -> homogeneous_qr (pe_qr env) -> 0 < c -> 
  inner_coef env prm (yi_kw y) (yi_s y) (affine c 0 (yi_0 y)) t = match inner_coef env prm (yi_kw y) (yi_s y) (yi_0 y) t with Ok v => Ok (c * v) | Err e => Err e end.
Proof.
  intros env prm y c t Hq HH Hc. unfold inner_coef. rewrite Hq. cbn [String.eqb Ascii.eqb Bool.eqb]. destruct (yi_kw y); [|reflexivity]. rewrite HH by auto.
  destruct (pe_qr env (yi_0 y) t) as [[|v [|? ?]]|e1]; cbn [bind map]; reflexivity.
Qed.
Lemma map2_unit2 : forall p a b c sX ysc B, unit_change p a b -> length sX = p -> (forall j, (j < p)%nat -> 0 < nth j sX 0) ->
  map2 (fun s b0 => (c * ysc) / s * b0) (unit_sca a sX) (map (Rmult c) B) = map (Rmult c) (unit_coef a c (map2 (fun s b0 => ysc / s * b0) sX B)).
Proof.
  intros p a b c sX ysc B Hu Ls Hp. pose proof (unit_bres p a b c sX [ysc] B Hu Ls eq_refl Hp) as HB. cbn [unit_sca map2 nth] in HB. rewrite <- HB.
  generalize (unit_sca a sX). clear. intros l. revert B. induction l as [|x l IH]; intros [|z B]; cbn [map2 map]; try reflexivity. rewrite IH. f_equal. unfold Rdiv. ring.
Qed.
Lemma loop_quantile : forall (env : pp_env R) k prm most kw y c n p a b sX d E cs yc Rt, pp_regopt prm = "quantile"%string -> homogeneous_qr (pe_qr env) -> 0 < c ->
  unit_change p a b -> length sX = p -> (forall j, (j < p)%nat -> 0 < nth j sX 0) ->
  pp_loop env k prm most kw (Some (uy c (affine c 0 (yi_0 y)) y)) None n p (unit_sca a sX) d E cs (map (uq2 a c) yc) Rt =
  (let '(d', r) := pp_loop env k prm most kw (Some y) None n p sX d E cs yc Rt in (d', match r with Ok (cs', yc', R') => Ok (cs', map (uq2 a c) yc', R') | Err e => Err e end)).
Proof.
  intros env k prm most kw y c n p a b sX d E cs yc Rt Hq HH Hc Hu Ls Hp. revert d E cs yc Rt. induction k as [|k IH]; intros d E cs yc Rt; cbn [pp_loop]; [reflexivity|].
  destruct (direction env prm most kw d p E) as [d' [wo|e]]; cbn [bind]; [|reflexivity].
  destruct (component prm most kw _ None n p E wo) as [cc|e]; cbn [bind]; [|reflexivity]. cbv zeta.
  destruct (rotations env p (cs ++ [cc])) as [R'|e]; cbn [bind]; [|reflexivity].
  cbn [uy yi_kw yi_s yi_0 yi_sca]. rewrite (inner_coef_quantile env prm y c) by auto. destruct (inner_coef env prm (yi_kw y) (yi_s y) (yi_0 y) (g_t cc)) as [ci|e]; cbn [bind]; [|reflexivity].
  pose proof Hu as (La & _ & _). assert (Lu : length (unit_sca a sX) = p) by (unfold unit_sca; rewrite map2_length; lia). rewrite Lu, Ls, Nat.eqb_refl. cbn [negb bind].
  assert (EM : map (fun x : R * list R * list R => fst (fst x)) (map (uq2 a c) yc) ++ [c * ci] = map (Rmult c) (map (fun x => fst (fst x)) yc ++ [ci])).
  { rewrite map_app, !map_map. cbn [map]. f_equal. }
  rewrite EM, matvec_scale. rnum. rewrite (map2_unit2 p a b) by auto.
  match goal with |- pp_loop _ _ _ _ _ _ _ _ _ _ _ _ _ (map (uq2 a c) yc ++ [?q]) _ = _ => replace (map (uq2 a c) yc ++ [q]) with (map (uq2 a c) (yc ++ [(ci, map2 (fun s b0 => yi_sca y / s * b0) sX (matvec R' (map (fun x => fst (fst x)) yc ++ [ci])), matvec R' (map (fun x => fst (fst x)) yc ++ [ci]))])) by (rewrite map_app; reflexivity) end.
  apply IH.
Qed.

Lemma coef_columns2 : forall p a b c yc h, unit_change p a b -> length yc = h -> (forall i, (i < h)%nat -> length (snd (fst (nth i yc q0))) = p) -> forall i, (i < h)%nat ->
  col i (of_cols p (map (fun q => snd (fst q)) (map (uq2 a c) yc))) = map (Rmult c) (unit_coef a c (col i (of_cols p (map (fun q => snd (fst q)) yc)))).
Proof.
  intros p a b c yc h (La & _ & _) Hl HC i Hi. assert (N : forall l, (i < length l)%nat -> nth i (map (fun q : R * list R * list R => snd (fst q)) l) [] = snd (fst (nth i l q0))).
  { intros l Hi'. rewrite (nth_map_lt _ _ _ q0) by auto. reflexivity. }
  assert (E1 : col i (of_cols p (map (fun q => snd (fst q)) yc)) = snd (fst (nth i yc q0))).
  { rewrite col_of_cols; [apply N; lia|rewrite map_length; lia|]. rewrite N by lia. apply HC; auto. }
  assert (NU : snd (fst (nth i (map (uq2 a c) yc) q0)) = map (Rmult c) (unit_coef a c (snd (fst (nth i yc q0))))) by (rewrite (nth_map_lt _ _ _ q0) by lia; reflexivity).
  rewrite E1. rewrite <- NU. rewrite col_of_cols; [apply N; rewrite map_length; lia|rewrite !map_length; lia|].
  rewrite N by (rewrite map_length; lia). rewrite NU. unfold unit_coef. rewrite map_length, map2_length, HC by auto. lia.
Qed.
Lemma finish_total : forall (prm : pparams R) s X Xs yi beta, pp_trim prm = 0 -> exists q, finish_y prm s false X Xs yi beta = Ok q.
Proof.
  intros prm s X Xs yi beta Ht. unfold finish_y. cbv zeta. destruct (is_mean (pp_center prm)); [|cbn [bind]; eexists; reflexivity].
  match goal with |- context [trim_mean1 ?t ?l] => destruct (trim_mean_total t l) as [z ->]; [rewrite Ht; lra|] end. cbn [bind]. eexists; reflexivity.
Qed.

Lemma quantile_fit_l : forall (env : pp_env R) prm d n p a b c X f, unit_centre (pp_center prm) -> pp_center_data prm = true -> pp_scale_data prm = true -> pp_trim prm = 0 -> direct_fit prm n p ->
  is_matrix n p X -> (2 <= n)%nat -> (1 <= p)%nat -> (1 <= pp_ncomp (with_h prm (f_h f)))%nat -> unit_change p a b -> 0 < c ->
  (forall j, (j < p)%nat -> has_spread (pscale (pp_center prm)) (column j X)) ->
  pp_regopt prm = "quantile"%string -> homogeneous_qr (pe_qr env) -> (exists v, length v = n /\ has_response (f_y f) v /\ has_spread (pscale (pp_center prm)) v) ->
  let '(q, d2, r) := pp_fit env prm d X f in
  let '(q', d2', r') := pp_fit env prm d (units a b X) (unit_fkw c 0 f) in
  q' = q /\ d2' = d2 /\
  match r, r' with
  | Ok m, Ok m' => same_components a b m m' /\ twice_scaled a c (pp_ncomp (with_h prm (f_h f))) m m'
  | Err e1, Err e2 => e1 = e2
  | _, _ => False
  end.
Proof.
  intros env prm d n p a b c X f Hc Hcd Hsd Ht [Hw Hco] W Hn Hp Hh Hu Hpos HX HR HH (w & Lw & (y & Ha & Hav) & Hsw).
  unfold pp_fit. cbn [unit_fkw f_y f_h f_bias]. cbn zeta. set (prm1 := with_h prm (f_h f)) in *.
  assert (Q : pp_idx prm1 = pp_idx prm /\ pp_trim prm1 = pp_trim prm /\ pp_regopt prm1 = pp_regopt prm /\ pp_center prm1 = pp_center prm /\
    pp_whiten prm1 = pp_whiten prm /\ pp_compress prm1 = pp_compress prm /\ pp_center_data prm1 = true /\ pp_scale_data prm1 = true) by (unfold prm1, with_h; destruct (f_h f); cbn; auto 10).
  destruct Q as (Q1 & Q2 & Q3 & Q4 & Q5 & Q6 & Q7 & Q8). rewrite Ht in Q2.
  assert (EW : with_whitening prm1 = prm1) by (unfold with_whitening; rewrite Q5, Hw; reflexivity). rewrite EW.
  destruct (ix_dicomo (pp_idx prm1) && _); [auto|]. destruct (ix_new (pp_idx prm1)) as [most|e1]; [|auto].
  pose proof Hu as (La & Lb & _). assert (WU : wf n p (units a b X)) by (apply units_wf; auto).
  rewrite (wf_length n p X W), (wf_ncols n p X), (wf_length n p _ WU), (wf_ncols n p _ WU) by (auto; lia).
  destruct (Nat.min n p <? pp_ncomp prm1)%nat eqn:EN; [auto|].
  assert (Hs : scale_name prm1 = Ok (pscale (pp_center prm)) /\ unit_scale (pscale (pp_center prm))).
  { unfold scale_name. rewrite Q4, Q8. destruct Hc as [-> | ->]; (split; [reflexivity|]); unfold unit_scale; cbn; auto. }
  destruct Hs as [-> Hs]. rewrite Q6.
  assert (EC : ((n <? p)%nat && pp_compress prm) = false). { destruct Hco as [-> |H']; [apply andb_false_r|]. destruct (Nat.ltb_spec n p); [lia|reflexivity]. }
  rewrite EC. rewrite Q5, Hw, Q7, Q4, Q2.
  destruct (pp_scaled_units env (pp_center prm) (pscale (pp_center prm)) n p a b X W Hn Hp Hc Hs Hu HX) as (m & v & Z & -> & -> & Lm & Lv & WZ & Hv & _).
  assert (HRs : forall k, exists yi my, response env prm1 (pscale (pp_center prm)) n k y = Ok (yi, my) /\ response env prm1 (pscale (pp_center prm)) n k (unit_arr c 0 y) = Ok (uy c (affine c 0 (yi_0 yi)) yi, c * my + 0)).
  { intros k. destruct (response_units env prm1 (pscale (pp_center prm)) n c 0 w y k) as (yi & my & H1 & H2 & H3 & _); rewrite ?Q4; auto. exists yi, my. rewrite H3. auto. }
  assert (HYi : exists y0 my, (match (match f_y f with YNone => None | YPos y => Some (false, y) | YKw y => Some (true, y) end) with
      | None => Ok None | Some (kwy, y) => bind (response env prm1 (pscale (pp_center prm)) n kwy y) (fun yi => Ok (Some yi)) end) = Ok (Some (y0, my)) /\
    (match (match match f_y f with YNone => YNone | YPos y => YPos (unit_arr c 0 y) | YKw y => YKw (unit_arr c 0 y) end with YNone => None | YPos y => Some (false, y) | YKw y => Some (true, y) end) with
      | None => Ok None | Some (kwy, y) => bind (response env prm1 (pscale (pp_center prm)) n kwy y) (fun yi => Ok (Some yi)) end) = Ok (Some (uy c (affine c 0 (yi_0 y0)) y0, c * my + 0))).
  { destruct Ha as [-> | ->]; [destruct (HRs false) as (yi & my & -> & ->)|destruct (HRs true) as (yi & my & -> & ->)]; cbn [bind]; exists yi, my; auto. }
  destruct HYi as (y0 & my & -> & ->). change (yi_s (uy c (affine c 0 (yi_0 y0)) y0)) with (yi_s y0). set (kw := index_kw prm1 (f_bias f) _). set (d1 := match pp_optim prm1 with OGrid => grid_options d | _ => d end).
  match goal with |- context [match ?chk with Ok _ => _ | Err _ => _ end] => destruct chk as [[]|e1]; [|auto] end.
  pose proof (loop_quantile env (pp_ncomp prm1) prm1 most kw y0 c n p a b v d1 Z [] [] (of_cols p []) ltac:(congruence) HH Hpos Hu Lv Hv) as HL. cbn [map] in HL. rewrite HL. clear HL.
  destruct (pp_loop env (pp_ncomp prm1) prm1 most kw (Some y0) None n p v d1 Z [] [] (of_cols p [])) as [d2 [[[cs yc] Rt]|e1]] eqn:EL; [|cbn [bind]; auto].
  destruct (coef_lengths _ _ _ _ _ _ _ _ _ _ _ _ _ _ _ WZ ltac:(lia) EL) as [Ly HC]. cbn [bind].
  repeat match goal with |- context [finish_y prm1 ?s false ?x ?z ?yy ?bb] => destruct (finish_total prm1 s x z yy bb Q2) as [[[[? ?] ?] ?] ->]; cbn [bind] end.
  split; [reflexivity|]. split; [reflexivity|]. split; [unfold same_components; cbn; auto 12|]. unfold twice_scaled. cbn [pm_y ym_coef].
  assert (WC : forall l : list (R * list R * list R), length l = pp_ncomp prm1 -> is_matrix (length a) (pp_ncomp prm1) (of_cols p (map (fun q => snd (fst q)) l))).
  { intros ll Hl. pose proof (wf_of_cols p (map (fun q : R * list R * list R => snd (fst q)) ll)) as WO. rewrite map_length, Hl in WO. rewrite La. exact WO. }
  split; [apply WC, Ly|]. split; [apply WC; rewrite map_length; exact Ly|]. intros ix Hix. rewrite !column_col. apply (coef_columns2 p a b c yc (pp_ncomp prm1)); auto.
Qed.
