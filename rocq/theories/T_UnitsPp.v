(** Property theorems C155, C156: projection pursuit of the same data in other
    units. *)

From Coq Require Import String Reals QArith List Arith ZArith Bool Lia Lra.
Import List. Import ListNotations.
From Verif Require Import Num Err Vec VecR S_Stats S_Regress L_Stats M_Utils M_Preproc M_Robcent M_Dicomo M_Ipopt M_Ppdire S_Ppdire M_PpWorld S_Dicomo S_Units S_UnitsPp
  T_Scaling T_Snipls T_Ppdire L_UnitsPp L_UnitsPp2.
Import List. Open Scope R_scope.

(* ------------------------------------------------------------------ *)
(** C155: centred and scaled by mean and standard deviation or median and MAD,
    without trimming, whitening or compression *)
Theorem C155_units : forall (env : pp_env R) prm d n p a b c e X f, unit_centre (pp_center prm) -> pp_center_data prm = true -> pp_scale_data prm = true -> pp_trim prm = 0 -> direct_fit prm n p ->
  is_matrix n p X -> (2 <= n)%nat -> (1 <= p)%nat -> (1 <= pp_ncomp (with_h prm (f_h f)))%nat -> unit_change p a b -> 0 < c ->
  (forall j, (j < p)%nat -> has_spread (pscale (pp_center prm)) (column j X)) ->
  (f_y f = YNone \/ pp_regopt prm <> "quantile"%string /\ exists v, length v = n /\ has_response (f_y f) v /\ has_spread (pscale (pp_center prm)) v) ->
  let '(q, d2, r) := pp_fit env prm d X f in
  let '(q', d2', r') := pp_fit env prm d (units a b X) (unit_fkw c e f) in
  q' = q /\ d2' = d2 /\
  match r, r' with
  | Ok m, Ok m' => same_in_units a b c e (pp_ncomp (with_h prm (f_h f))) m m' /\ (pp_center prm = CMean -> scaled_icpt m' = scaled_icpt m)
  | Err e1, Err e2 => e1 = e2
  | _, _ => False
  end.
Proof. exact units_fit_l. Qed.
Print Assumptions C155_units.
(** new data, measured in the new units as well *)
Theorem C155_new_data : forall (env : pp_env R) prm d n p a b c e X f q d2 m q' d2' m' k Xn, unit_centre (pp_center prm) -> pp_center_data prm = true -> pp_scale_data prm = true -> pp_trim prm = 0 -> direct_fit prm n p ->
  is_matrix n p X -> (2 <= n)%nat -> (1 <= p)%nat -> (1 <= pp_ncomp (with_h prm (f_h f)))%nat -> unit_change p a b -> 0 < c ->
  (forall j, (j < p)%nat -> has_spread (pscale (pp_center prm)) (column j X)) ->
  (f_y f = YNone \/ pp_regopt prm <> "quantile"%string /\ exists v, length v = n /\ has_response (f_y f) v /\ has_spread (pscale (pp_center prm)) v) ->
  pp_fit env prm d X f = (q, d2, Ok m) -> pp_fit env prm d (units a b X) (unit_fkw c e f) = (q', d2', Ok m') -> is_matrix k p Xn -> (1 <= k)%nat ->
  pp_transform m' (units a b Xn) = pp_transform m Xn /\
  (f_y f <> YNone -> exists v, pp_predict m Xn = Ok v /\ pp_predict m' (units a b Xn) = Ok (affine c e v)).
Proof. exact new_units_l. Qed.
Print Assumptions C155_new_data.

(** A real case: the optimiser returns the first axis; the quantile regression
    returns the sum of the response, which is homogeneous. *)
Definition yU : list R := [1; 2; 4].
Definition ppU : pp_env R := mk_ppenv env0 trigR (fun M => Ok (map (map (fun _ => 1)) M)) no_svd (fun _ _ _ _ => Ok [1; 0]) (fun _ _ => Err ValueError) (fun y _ => Ok [vsum y]).
Definition prmU (ce : centre_opt R) (ro : string) : pparams R := mk_pp (mk_ppindex false None (Ok ssq)) 1 0 1 (OScipy "SLSQP") ro ce true true false false false.

Lemma wf32 : forall Z : list (list R), is_matrix 3 2 Z -> exists a b c d e f, Z = [[a; b]; [c; d]; [e; f]].
Proof.
  intros Z [HL HF]. destruct Z as [|r1 [|r2 [|r3 [|? ?]]]]; try discriminate HL. inversion HF as [|? ? H1 HF1]; subst. inversion HF1 as [|? ? H2 HF2]; subst. inversion HF2 as [|? ? H3 HF3]; subst.
  destruct r1 as [|a [|b [|? ?]]]; try discriminate H1. destruct r2 as [|c [|d [|? ?]]]; try discriminate H2. destruct r3 as [|e [|f [|? ?]]]; try discriminate H3. eauto 10.
Qed.
Lemma X32_var : forall j, (j < 2)%nat -> has_spread SStd (column j X32R).
Proof. intros j Hj. destruct j as [|[|j]]; [| |lia]; unfold X32R, has_spread, variance_of, mean_of, sum_of, column; cbn [map nth fold_right length]; rewrite ?S_INR; cbn [INR]; lra. Qed.
Lemma yU_var : has_spread SStd yU.
Proof. unfold yU, has_spread, variance_of, mean_of, sum_of, column; cbn [map nth fold_right length]; rewrite ?S_INR; cbn [INR]; lra. Qed.
Lemma fitU : forall ro, ro = "OLS"%string \/ ro = "quantile"%string -> exists m, pp_fit ppU (prmU CMean ro) [] X32R (f0 (YKw (A1 yU))) = (prmU CMean ro, [], Ok m) /\
  (ro = "quantile"%string -> exists y, pm_y m = Some y /\ nth 0 (column 0 (ym_coef y)) 0 <> 0).
Proof.
  intros ro Hro.
  destruct (pp_scaled_units ppU CMean SStd 3 2 [1; 1] [0; 0] X32R) as (m & v & Z & E & _ & Lm & Lv & WZ & Hv & _); try lia; auto; [apply X32R_matrix|left; reflexivity|left; reflexivity| |apply X32_var|].
  { split; [reflexivity|]. split; [reflexivity|]. repeat constructor; lra. }
  destruct (response_units ppU (prmU CMean ro) SStd 3 1 0 yU (A1 yU) true) as (yi & my & EY & _ & Ey0 & Lys & _ & Hk & Hsc); try lia; try reflexivity; auto; [left; reflexivity|left; reflexivity|lra|apply yU_var|].
  apply wf32 in WZ as (z1 & z2 & z3 & z4 & z5 & z6 & ->). destruct v as [|v1 [|v2 [|? ?]]]; try discriminate Lv.

  assert (EN : ncols X32R = 2%nat) by reflexivity. assert (EL : length X32R = 3%nat) by reflexivity.

  assert (Es : vsum (yi_0 yi) = 7) by (rewrite Ey0; unfold yU; rewrite !vsum_cons, vsum_nil; lra). clear Ey0. specialize (Hv 0%nat ltac:(lia)). cbn [nth] in Hv.
  unfold pp_fit. cbn zeta. rewrite EN, EL. revert E EY. generalize X32R yU. intros X yy E1 EY1.
  cbn -[pp_scaled response pp_loop finish_y]. rewrite E1. cbn -[pp_scaled response pp_loop finish_y]. rewrite EY1. cbn -[pp_scaled response pp_loop finish_y].
  destruct yi as [ykw ys y0 ysca]. cbn [yi_kw yi_0 yi_s yi_sca] in *. subst ykw. destruct ys as [|s1 [|s2 [|s3 [|? ?]]]]; try discriminate Lys.
  destruct Hro as [-> | ->]; cbn -[pp_scaled response finish_y]; rnum;
    match goal with |- context [finish_y ?p ?s false ?x ?z ?yy ?bb] => destruct (finish_total p s x z yy bb eq_refl) as [[[[? ?] ?] ?] ->]; cbn [bind] end;
    (eexists; split; [reflexivity|]); [discriminate|]. intros _. eexists. split; [reflexivity|]. unfold vsum in Es. cbn in Es |- *. rewrite Es.
  replace (1 * 1 + (0 * 0 + 0)) with 1 by ring. rewrite sqrt_1. unfold Rdiv. rewrite Rinv_1.
  assert (0 < / v1) by (apply Rinv_0_lt_compat; auto). match goal with |- ?g <> 0 => replace g with (7 * (ysca * / v1)) by ring end. nra.
Qed.

Lemma U2 : unit_change 2 [100; 9/5] [0; 32].
Proof. split; [reflexivity|]. split; [reflexivity|]. repeat constructor; lra. Qed.
Example C155_case : unit_centre CMean /\ direct_fit (prmU CMean "OLS") 3 2 /\ is_matrix 3 2 X32R /\ unit_change 2 [100; 9/5] [0; 32] /\
  (forall j, (j < 2)%nat -> has_spread (pscale CMean) (column j X32R)) /\ has_response (f_y (f0 (YKw (A1 yU)))) yU /\ has_spread (pscale CMean) yU /\
  (exists m, pp_fit ppU (prmU CMean "OLS") [] X32R (f0 (YKw (A1 yU))) = (prmU CMean "OLS", [], Ok m)) /\
  exists m', pp_fit ppU (prmU CMean "OLS") [] (units [100; 9/5] [0; 32] X32R) (unit_fkw 1000 5 (f0 (YKw (A1 yU)))) = (prmU CMean "OLS", [], Ok m').
Proof.
  assert (HR : has_response (f_y (f0 (YKw (A1 yU)))) yU) by (exists (A1 yU); auto).
  split; [left; reflexivity|]. split; [split; [reflexivity|left; reflexivity]|]. split; [apply X32R_matrix|]. split; [apply U2|]. split; [apply X32_var|].
  split; [exact HR|]. split; [apply yU_var|]. destruct (fitU "OLS" (or_introl eq_refl)) as (m & E & _). split; [exists m; exact E|].
  pose proof (C155_units ppU (prmU CMean "OLS") [] 3 2 [100; 9/5] [0; 32] 1000 5 X32R (f0 (YKw (A1 yU)))) as HU. rewrite E in HU.
  destruct (pp_fit ppU (prmU CMean "OLS") [] (units [100; 9/5] [0; 32] X32R) (unit_fkw 1000 5 (f0 (YKw (A1 yU))))) as [[q' d'] r'].
  destruct HU as (-> & -> & HU); try reflexivity; try (cbn; lia); try lra; [left; reflexivity|split; [reflexivity|left; reflexivity]|apply X32R_matrix|apply U2|apply X32_var| |].
  { right. split; [discriminate|]. exists yU. split; [reflexivity|]. split; [exact HR|apply yU_var]. }
  destruct r' as [m'|]; [|contradiction]. exists m'. reflexivity.
Qed.

(* ------------------------------------------------------------------ *)
(** C156: with regopt = 'quantile' the response is regressed unscaled and its
    scale is multiplied in again: a response in units c times as small has
    coefficients c^2 times as large *)
Theorem C156_twice : forall (env : pp_env R) prm d n p a b c X f, unit_centre (pp_center prm) -> pp_center_data prm = true -> pp_scale_data prm = true -> pp_trim prm = 0 -> direct_fit prm n p ->
  is_matrix n p X -> (2 <= n)%nat -> (1 <= p)%nat -> (1 <= pp_ncomp (with_h prm (f_h f)))%nat -> unit_change p a b -> 0 < c ->
  (forall j, (j < p)%nat -> has_spread (pscale (pp_center prm)) (column j X)) ->
  pp_regopt prm = "quantile"%string -> homogeneous_qr (pe_qr env) -> (exists v, length v = n /\ has_response (f_y f) v /\ has_spread (pscale (pp_center prm)) v) ->
  let '(q, d2, r) := pp_fit env prm d X f in
  let '(q', d2', r') := pp_fit env prm d (units a b X) (unit_fkw c 0 f) in
  q' = q /\ d2' = d2 /\
  match r, r' with
  | Ok m, Ok m' => same_components a b m m' /\ twice_scaled a c (pp_ncomp (with_h prm (f_h f))) m m'
  | Err e1, Err e2 => e1 = e2
  | _, _ => False
  end.
Proof. exact quantile_fit_l. Qed.
Print Assumptions C156_twice.
(** so the coefficients do not describe the same regression in the new unit *)
Theorem C156_quantile_refuted : exists (env : pp_env R) prm d X f q d2 m q' d2' m' c,
  unit_centre (pp_center prm) /\ pp_center_data prm = true /\ pp_scale_data prm = true /\ pp_trim prm = 0 /\ direct_fit prm 3 2 /\ is_matrix 3 2 X /\ 0 < c /\
  (forall j, (j < 2)%nat -> has_spread (pscale (pp_center prm)) (column j X)) /\ pp_regopt prm = "quantile"%string /\ homogeneous_qr (pe_qr env) /\
  (exists v, length v = 3%nat /\ has_response (f_y f) v /\ has_spread (pscale (pp_center prm)) v) /\
  pp_fit env prm d X f = (q, d2, Ok m) /\ pp_fit env prm d (units [1; 1] [0; 0] X) (unit_fkw c 0 f) = (q', d2', Ok m') /\
  ~ same_in_units [1; 1] [0; 0] c 0 1 m m'.
Proof.
  assert (HR : has_response (f_y (f0 (YKw (A1 yU)))) yU) by (exists (A1 yU); auto).
  assert (HQ : homogeneous_qr (pe_qr ppU)).
  { intros c y t _. cbn [pe_qr ppU map]. do 2 f_equal. unfold affine. induction y as [|x y IH]; cbn [map]; rewrite ?vsum_nil, ?vsum_cons; [ring|]. rewrite IH. ring. }
  assert (HUn : unit_change 2 [1; 1] [0; 0]) by (split; [reflexivity|]; split; [reflexivity|]; repeat constructor; lra).
  destruct (fitU "quantile" (or_intror eq_refl)) as (m & E & HN). destruct (HN eq_refl) as (y & Ey & Hy).
  pose proof (C156_twice ppU (prmU CMean "quantile") [] 3 2 [1; 1] [0; 0] 2 X32R (f0 (YKw (A1 yU)))) as HU. rewrite E in HU.
  destruct (pp_fit ppU (prmU CMean "quantile") [] (units [1; 1] [0; 0] X32R) (unit_fkw 2 0 (f0 (YKw (A1 yU))))) as [[q' d'] r'] eqn:E'.
  destruct HU as (-> & -> & HU); try reflexivity; try (cbn; lia); try lra; try assumption; [left; reflexivity|split; [reflexivity|left; reflexivity]|apply X32R_matrix|apply X32_var| |].
  { exists yU. split; [reflexivity|]. split; [exact HR|apply yU_var]. }
  destruct r' as [m'|]; [|contradiction]. destruct HU as [_ HT]. unfold twice_scaled in HT. rewrite Ey in HT. destruct (pm_y m') as [y'|] eqn:Ey'; [|contradiction]. destruct HT as (W1 & W2 & HT).
  exists ppU, (prmU CMean "quantile"), [], X32R, (f0 (YKw (A1 yU))), (prmU CMean "quantile"), [], m, (prmU CMean "quantile"), [], m', 2.
  split; [left; reflexivity|]. do 3 (split; [reflexivity|]). split; [split; [reflexivity|left; reflexivity]|]. split; [apply X32R_matrix|]. split; [lra|]. split; [apply X32_var|]. split; [reflexivity|]. split; [exact HQ|].
  split; [exists yU; split; [reflexivity|]; split; [exact HR|apply yU_var]|]. split; [exact E|]. split; [exact E'|].
  intros [_ HS]. rewrite Ey, Ey' in HS. destruct HS as (_ & _ & HS & _). specialize (HS 0%nat ltac:(lia)). specialize (HT 0%nat ltac:(cbn; lia)). rewrite HT in HS.
  cbn [length] in W1. destruct W1 as [L1 F1]. assert (LC : length (column 0 (ym_coef y)) = 2%nat) by (unfold column; rewrite map_length; exact L1).
  destruct (column 0 (ym_coef y)) as [|x [|z [|? ?]]]; try discriminate LC. cbn [nth] in Hy. unfold unit_coef in HS. cbn [map2 map] in HS. injection HS as H1 _. apply Hy. lra.
Qed.
Print Assumptions C156_quantile_refuted.
