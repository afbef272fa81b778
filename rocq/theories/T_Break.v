(** Property theorems C165: can a single case carry the coefficients of rm away? *)

From Coq Require Import Reals String List Arith ZArith Bool Lia Lra.
Import List ListNotations.
From Verif Require Import Num Err Vec M_Utils M_Preproc M_Robcent M_Msupport M_Rm S_Rm S_Break T_Scaling L_Rm2 L_Break.
Open Scope R_scope.

(** Hampel weights with quantiles in the usual range, median and MAD: five cases of
    which four lie on the line y = x.  The fourth case, whose response is [M], gets the
    final weight zero, and the slope grows with [M] without bound: weights below 1e-6
    are raised to 1e-6 in the regressions. *)
Theorem C165_slope : forall env P M, exact_slope env ->
  ~ invalid_rm P -> r_fun P = Some MHampel -> r_centre P = CMedian -> r_scale P = SMad -> (2 <= r_maxit P)%nat -> r_tol P < 1 ->
  1 <= cty env P -> cty env P < cby env P -> cby env P < cry env P -> cry env P <= 1000 ->
  2 <= ctx env P 1 -> ctx env P 1 < cbx env P 1 -> cbx env P 1 < crx env P 1 -> 10000 <= M ->
  exists m, rm_fit env P line5 (line5_y M) = Ok m /\ rm_cw m = [1; 1; 1; 0; 1] /\ rm_coef m = [(9 + M / 1000000) / (9 + 1 / 1000000)].
Proof.
  intros env P M HL HV HF Hc Hs Hm Ht H1 H2 H3 H4 H5 H6 H7 HM. apply (outlier_l env P M); auto.
  unfold rm_check. rewrite HF. unfold invalid_rm in HV. rewrite HF in HV.
  assert (Hp1 : 0 < r_p1 P <= 1). { destruct (Rlt_dec 0 (r_p1 P)), (Rle_dec (r_p1 P) 1); try (split; assumption); exfalso; apply HV; right; left; intros [? ?]; contradiction. }
  assert (Hp : r_p1 P < r_p2 P /\ r_p2 P < r_p3 P /\ r_p3 P <= 1).
  { destruct (Rlt_dec (r_p1 P) (r_p2 P)), (Rlt_dec (r_p2 P) (r_p3 P)), (Rle_dec (r_p3 P) 1); try (repeat split; assumption); exfalso; apply HV; right; right; (split; [reflexivity|intros (? & ? & ?); contradiction]). }
  rnum. replace (Rltb 1 (r_p1 P)) with false by (symmetry; apply Rltb_false; lra). replace (Rleb (r_p1 P) 0) with false by (symmetry; apply Rleb_false; lra). cbn [orb].
  replace (Rltb (r_p1 P) (r_p2 P)) with true by (symmetry; apply Rltb_true; lra). replace (Rltb (r_p2 P) (r_p3 P)) with true by (symmetry; apply Rltb_true; lra). replace (Rleb (r_p3 P) 1) with true by (symmetry; apply Rleb_true; lra). reflexivity.
Qed.
Print Assumptions C165_slope.
(** no bound holds for the coefficients when one of the five responses is arbitrary,
    although the fits report that the case has no weight *)
Theorem C165_refuted : forall env P, exact_slope env ->
  ~ invalid_rm P -> r_fun P = Some MHampel -> r_centre P = CMedian -> r_scale P = SMad -> (2 <= r_maxit P)%nat -> r_tol P < 1 ->
  1 <= cty env P -> cty env P < cby env P -> cby env P < cry env P -> cry env P <= 1000 ->
  2 <= ctx env P 1 -> ctx env P 1 < cbx env P 1 -> cbx env P 1 < crx env P 1 ->
  ~ exists B, forall M m, rm_fit env P line5 (line5_y M) = Ok m -> nth 3 (rm_cw m) 1 = 0 -> Forall (fun b => Rabs b <= B) (rm_coef m).
Proof.
  intros env P HL HV HF Hc Hs Hm Ht H1 H2 H3 H4 H5 H6 H7 [B HB]. set (M := 10000 + 20000000 * Rabs B). pose proof (Rabs_pos B) as HB0.
  destruct (C165_slope env P M) as (m & E & Ew & Ec); auto; [unfold M; lra|]. specialize (HB M m E). rewrite Ew, Ec in HB. specialize (HB eq_refl). apply Forall_inv in HB.
  assert (G : B < (9 + M / 1000000) / (9 + 1 / 1000000)).
  { apply (Rmult_lt_reg_r (9 + 1 / 1000000)); [lra|]. unfold Rdiv at 2. rewrite Rmult_assoc, Rinv_l by lra. pose proof (Rle_abs B). unfold M. lra. }
  pose proof (Rle_abs ((9 + M / 1000000) / (9 + 1 / 1000000))). lra.
Qed.
Print Assumptions C165_refuted.
(** a routine and parameters that meet the hypotheses: exact regression through the
    origin, quantiles close to those of the normal and chi-squared distributions *)
Definition rmB : rm_env R := {| re_prep := env0; re_normppf := fun q => 1 + (q - 9/10); re_chi2ppf := fun q _ => 3 + q;
  re_lstsq := fun Xw yw => let x := map (fun r => nth 0 r 0) Xw in Ok [sum_products x yw / sum_products x x] |}.
Definition PB : rm_par R := mk_rm_par (Some MHampel) (95/100) (975/1000) (999/1000) CMedian SMad true 100 (1/100) true.
Example C165_case : exact_slope rmB /\ ~ invalid_rm PB /\ r_fun PB = Some MHampel /\ 1 <= cty rmB PB /\ cty rmB PB < cby rmB PB /\ cby rmB PB < cry rmB PB /\ cry rmB PB <= 1000 /\
  2 <= ctx rmB PB 1 /\ ctx rmB PB 1 < cbx rmB PB 1 /\ cbx rmB PB 1 < crx rmB PB 1.
Proof.
  split. { intros x y _ _. cbn [rmB re_lstsq]. rewrite map_map. cbn [nth]. rewrite map_id. reflexivity. }
  split. { unfold invalid_rm, PB. cbn [r_fun r_p1 r_p2 r_p3]. intros [H|[H|[_ H]]]; [discriminate|apply H; lra|apply H; lra]. }
  split; [reflexivity|]. unfold cty, cby, cry, ctx, cbx, crx. cbn [PB r_specific r_p1 r_p2 r_p3 rmB re_normppf re_chi2ppf]. lra.
Qed.
