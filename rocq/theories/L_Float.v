(** Rounded arithmetic: the format of doubles, evaluation of single roundings,
    weights, medians and scalers *)
From Coq Require Import Reals List Arith ZArith Bool Lia Lra Permutation.
Import ListNotations.
From Verif Require Import Num Err Vec VecR OrdR L_Mat S_Stats S_Weights L_Stats M_Utils M_Preproc M_Robcent M_Msupport M_Float S_Float L_Lin L_Preproc L_Scaling L_Scaling2 S_Order L_Order L_OrderSc.
From Flocq Require Import Core Plus_error Mult_error.
Open Scope R_scope.

Lemma binary64_rounding : rounding binary64.
Proof.
  assert (HG : forall x, binary64 x = x -> generic_format radix2 (FLT_exp (-1074) 53) x).
  { intros x E. rewrite <- E. unfold binary64. apply generic_format_round; auto with typeclass_instances. apply FLT_exp_valid. reflexivity. }
  assert (VE : Valid_exp (FLT_exp (-1074) 53)) by (apply FLT_exp_valid; reflexivity).
  split.
  - intros x y H. unfold binary64. apply round_le; auto with typeclass_instances.
  - intros x. unfold binary64. apply round_generic; auto with typeclass_instances. apply generic_format_round; auto with typeclass_instances.
  - unfold binary64. apply round_0; auto with typeclass_instances.
  - unfold binary64. apply round_generic; auto with typeclass_instances. change 1 with (bpow radix2 0). apply generic_format_bpow. cbn. lia.
  - unfold binary64. apply round_generic; auto with typeclass_instances. change (/2) with (bpow radix2 (-1)). apply generic_format_bpow. cbn. lia.
  - intros x. unfold binary64. apply round_NE_opp.
  - intros x y Hx Hy Hxy. assert (H0 : 0 <= binary64 (y - x)).
    { replace 0 with (binary64 0) by (unfold binary64; apply round_0; auto with typeclass_instances). unfold binary64. apply round_le; auto with typeclass_instances. lra. }
    destruct H0 as [H0|H0]; [exact H0|]. exfalso. revert H0. apply not_eq_sym. unfold binary64, Rminus. apply round_plus_neq_0; auto with typeclass_instances.
    + apply generic_format_opp. auto.
    + lra.
  - intros x Hx. unfold binary64. apply round_generic; auto with typeclass_instances. rewrite Rmult_comm. change 2 with (bpow radix2 1). apply mult_bpow_pos_exact_FLT; auto. lia.
Qed.

(** one rounding, evaluated *)
Lemma b64_val : forall x m e, (-1074 <= e)%Z -> (4503599627370496 < m < 9007199254740991)%Z -> Rabs (x * bpow radix2 (- e) - IZR m) < /2 -> binary64 x = IZR m * bpow radix2 e.
Proof.
  intros x m e He Hm Hx. assert (Hb : bpow radix2 (- e) * bpow radix2 e = 1) by (rewrite <- bpow_plus, Z.add_opp_diag_l; reflexivity).
  assert (Hp : 0 < bpow radix2 e) by apply bpow_gt_0.
  apply Rabs_def2 in Hx. destruct Hx as [Hx1 Hx2]. set (s := x * bpow radix2 (- e)) in *. assert (Ex : x = s * bpow radix2 e) by (unfold s; rewrite Rmult_assoc, Hb; ring).
  destruct Hm as [Hm1 Hm2]. assert (M1 : IZR (4503599627370496 + 1) <= IZR m) by (apply IZR_le; lia). assert (M2 : IZR m <= IZR (9007199254740991 - 1)) by (apply IZR_le; lia). cbn in M1, M2.
  assert (Hmag : mag radix2 x = (e + 53)%Z :> Z).
  { apply mag_unique. rewrite Ex, Rabs_mult, (Rabs_right (bpow radix2 e)) by lra. rewrite Rabs_right by lra.
    replace (e + 53 - 1)%Z with (52 + e)%Z by ring. replace (e + 53)%Z with (53 + e)%Z by ring. rewrite !bpow_plus. change (bpow radix2 52) with 4503599627370496. change (bpow radix2 53) with 9007199254740992.
    split; [apply Rmult_le_compat_r; lra|apply Rmult_lt_compat_r; lra]. }
  assert (Hc : cexp radix2 (FLT_exp (-1074) 53) x = e) by (unfold cexp; rewrite Hmag; unfold FLT_exp; lia).
  unfold binary64, round, scaled_mantissa. rewrite Hc. unfold F2R. cbn [Fnum Fexp]. f_equal. f_equal. apply Znearest_imp. apply Rabs_def1; fold s; lra.
Qed.
(** ties *)
Lemma b64_tie : forall x m m' e, (-1074 <= e)%Z -> (4503599627370496 <= m)%Z -> (m < 9007199254740991)%Z -> x * bpow radix2 (- e) = IZR m + /2 -> m' = (if Z.even m then m else m + 1)%Z -> binary64 x = IZR m' * bpow radix2 e.
Proof.
  intros x m m' e He Hm1 Hm2 Hx Hm'. assert (Hb : bpow radix2 (- e) * bpow radix2 e = 1) by (rewrite <- bpow_plus, Z.add_opp_diag_l; reflexivity).
  assert (Hp : 0 < bpow radix2 e) by apply bpow_gt_0.
  set (s := x * bpow radix2 (- e)) in *. assert (Ex : x = s * bpow radix2 e) by (unfold s; rewrite Rmult_assoc, Hb; ring).
  assert (M1 : IZR 4503599627370496 <= IZR m) by (apply IZR_le; lia). assert (M2 : IZR m <= IZR (9007199254740991 - 1)) by (apply IZR_le; lia). cbn in M1, M2.
  assert (Hmag : mag radix2 x = (e + 53)%Z :> Z).
  { apply mag_unique. rewrite Ex, Rabs_mult, (Rabs_right (bpow radix2 e)) by lra. rewrite Rabs_right by lra.
    replace (e + 53 - 1)%Z with (52 + e)%Z by ring. replace (e + 53)%Z with (53 + e)%Z by ring. rewrite !bpow_plus. change (bpow radix2 52) with 4503599627370496. change (bpow radix2 53) with 9007199254740992.
    split; [apply Rmult_le_compat_r; lra|apply Rmult_lt_compat_r; lra]. }
  assert (Hc : cexp radix2 (FLT_exp (-1074) 53) x = e) by (unfold cexp; rewrite Hmag; unfold FLT_exp; lia).
  unfold binary64, round, scaled_mantissa. rewrite Hc. unfold F2R. cbn [Fnum Fexp]. f_equal. f_equal. fold s.
  assert (Hf : Zfloor s = m) by (apply Zfloor_imp; rewrite plus_IZR; lra).
  unfold Znearest. rewrite Hf. rewrite Rcompare_Eq by lra. rewrite Zceil_floor_neq, Hf by (rewrite Hf; lra). rewrite Hm'. destruct (Z.even m); reflexivity.
Qed.
(** numbers with at most 53 bits *)
Lemma b64_exact : forall x m e, (-1074 <= e)%Z -> (Z.abs m < 9007199254740992)%Z -> x = IZR m * bpow radix2 e -> binary64 x = x.
Proof.
  intros x m e He Hm Hx. unfold binary64. apply round_generic; auto with typeclass_instances. apply generic_format_FLT. exists (Float radix2 m e); [exact Hx|exact Hm|exact He].
Qed.

(** ** Weights *)
Section W.
  Variable rnd : R -> R.
  Hypothesis HR : rounding rnd.
  Local Notation N := (Num_rnd rnd).

  Lemma rnd_nonneg : forall x, 0 <= x -> 0 <= rnd x.
  Proof. intros x Hx. rewrite <- (rnd_0 rnd HR). apply (rnd_mono rnd HR), Hx. Qed.
  Lemma rnd_le1 : forall x, x <= 1 -> rnd x <= 1.
  Proof. intros x Hx. rewrite <- (rnd_1 rnd HR). apply (rnd_mono rnd HR), Hx. Qed.
  Lemma rnd_ge1 : forall x, 1 <= x -> 1 <= rnd x.
  Proof. intros x Hx. rewrite <- (rnd_1 rnd HR) at 1. apply (rnd_mono rnd HR), Hx. Qed.
  Lemma rnd_2 : rnd 2 = 2.
  Proof. rewrite <- (Rmult_1_r 2). apply (rnd_double rnd HR), (rnd_1 rnd HR). Qed.

  (** the weight of one case *)
  Definition w1 (f : mfun) (c b r v : R) : R := nth 0 (@mweights R N f c b r [v]) 0.
  Lemma nth_w1 : forall f c b r x i, (i < length x)%nat -> nth i (@mweights R N f c b r x) 0 = w1 f c b r (nth i x 0).
  Proof.
    intros f c b r x. unfold w1. assert (E : forall (g : R -> R) i, (i < length x)%nat -> nth i (map g x) 0 = g (nth i x 0)).
    { intros g i Hi. rewrite (nth_indep _ 0 (g 0)) by (rewrite map_length; exact Hi). apply map_nth. }
    intros i Hi. destruct f; cbn [mweights]; unfold Fair, Huber, Hampel, upd; rewrite ?map_map; rewrite E by exact Hi; reflexivity.
  Qed.
  Lemma len_w : forall f c b r x, length (@mweights R N f c b r x) = length x.
  Proof. intros f c b r x. destruct f; cbn [mweights]; unfold Fair, Huber, Hampel, upd; rewrite ?map_length; reflexivity. Qed.

  Lemma quot_le : forall a b c d, 0 <= a -> a <= c -> 0 < d -> d <= b -> a / b <= c / d.
  Proof.
    intros a b c d Ha Hac Hd Hdb. apply Rle_trans with (c / b).
    - apply Rmult_le_compat_r; [|exact Hac]. apply Rlt_le, Rinv_0_lt_compat. lra.
    - apply Rmult_le_compat_l; [lra|]. apply Rinv_le_contravar; assumption.
  Qed.
  Lemma quot_01 : forall a b, 0 <= a -> a <= b -> 0 < b -> 0 <= a / b <= 1.
  Proof.
    intros a b Ha Hab Hb. split; [apply Rmult_le_pos; [exact Ha|apply Rlt_le, Rinv_0_lt_compat, Hb]|].
    replace 1 with (b / b) by (field; lra). apply quot_le; lra.
  Qed.

  Definition fair_s (c v : R) : R := rnd (1 + Rabs (rnd (v / (2 * c)))).
  Lemma fair_val : forall c b r v, rnd c = c -> w1 MFair c b r v = rnd (1 / rnd (fair_s c v * fair_s c v)).
  Proof.
    intros c b r v Hc. unfold w1, fair_s. cbn. unfold nnat, nZ, nsqr. cbn. replace (2 / 1) with 2 by field. rewrite rnd_2, (Rmult_comm c 2), (rnd_double rnd HR c Hc). reflexivity.
  Qed.
  Lemma fair_ge1 : forall c v, 1 <= fair_s c v.
  Proof. intros c v. apply rnd_ge1. pose proof (Rabs_pos (rnd (v / (2 * c)))). lra. Qed.
  Lemma fair_mono : forall c v v', 0 < c -> 0 <= v -> v <= v' -> fair_s c v <= fair_s c v'.
  Proof.
    intros c v v' Hc Hv Hvv. apply (rnd_mono rnd HR). apply Rplus_le_compat_l.
    assert (H0 : 0 <= v / (2 * c)) by (apply Rmult_le_pos; [exact Hv|apply Rlt_le, Rinv_0_lt_compat; lra]).
    assert (H1 : v / (2 * c) <= v' / (2 * c)) by (apply quot_le; lra).
    rewrite !Rabs_right; [apply (rnd_mono rnd HR), H1|apply Rle_ge, rnd_nonneg; lra|apply Rle_ge, rnd_nonneg; lra].
  Qed.
  Lemma fair_sq : forall c v, 1 <= rnd (fair_s c v * fair_s c v).
  Proof. intros c v. apply rnd_ge1. pose proof (fair_ge1 c v). nra. Qed.

  Lemma huber_val : forall c b r v, 1 <= c -> 0 <= v -> w1 MHuber c b r v = if Rle_dec v c then 1 else rnd (c / v).
  Proof.
    intros c b r v Hc Hv. unfold w1. cbn. destruct (Rle_dec v c) as [H|H].
    - rewrite (proj2 (Rleb_true v c)) by lra. destruct (Rltb c 1) eqn:E; [|reflexivity]. rcmp_all. lra.
    - destruct (Rleb v c) eqn:E; [rcmp_all; lra|]. rewrite (proj2 (Rltb_true c v)) by lra. rewrite Rabs_right by lra. reflexivity.
  Qed.

  Definition tail_w (c b r v : R) : R := rnd (rnd (c * rnd (r - v)) / rnd (rnd (r - b) * v)).
  Lemma tail_den : forall b r v, rnd b = b -> rnd r = r -> 1 <= v -> b < r -> 0 < rnd (rnd (r - b) * v).
  Proof.
    intros b r v Hb Hr Hv Hbr. pose proof (rnd_diff rnd HR b r Hb Hr Hbr) as H. apply Rlt_le_trans with (rnd (r - b)); [exact H|].
    rewrite <- (rnd_idem rnd HR (r - b)) at 1. apply (rnd_mono rnd HR). nra.
  Qed.
  Lemma tail_01 : forall c b r v, rnd b = b -> rnd r = r -> 1 <= c -> c < b -> b < v -> v <= r -> 0 <= tail_w c b r v <= 1.
  Proof.
    intros c b r v Hb Hr Hc Hcb Hbv Hvr. assert (HD : 0 < rnd (rnd (r - b) * v)) by (apply tail_den; lra).
    assert (H1 : 0 <= rnd (r - v)) by (apply rnd_nonneg; lra). assert (H2 : rnd (r - v) <= rnd (r - b)) by (apply (rnd_mono rnd HR); lra).
    assert (HN : 0 <= rnd (c * rnd (r - v))) by (apply rnd_nonneg; nra).
    assert (HL : rnd (c * rnd (r - v)) <= rnd (rnd (r - b) * v)) by (apply (rnd_mono rnd HR); nra).
    destruct (quot_01 _ _ HN HL HD) as [A B]. split; [apply rnd_nonneg, A|apply rnd_le1, B].
  Qed.
  Lemma tail_mono : forall c b r v v', rnd b = b -> rnd r = r -> 1 <= c -> c < b -> b < v -> v <= v' -> v' <= r -> tail_w c b r v' <= tail_w c b r v.
  Proof.
    intros c b r v v' Hb Hr Hc Hcb Hbv Hvv Hvr. apply (rnd_mono rnd HR).
    assert (H1 : 0 <= rnd (r - v')) by (apply rnd_nonneg; lra). assert (H2 : rnd (r - v') <= rnd (r - v)) by (apply (rnd_mono rnd HR); lra).
    pose proof (rnd_diff rnd HR b r Hb Hr ltac:(lra)) as HD.
    apply quot_le; [apply rnd_nonneg; nra|apply (rnd_mono rnd HR); nra|apply tail_den; lra|apply (rnd_mono rnd HR); nra].
  Qed.
  Lemma tail_end : forall c b r, tail_w c b r r = 0.
  Proof. intros c b r. unfold tail_w. replace (r - r) with 0 by ring. rewrite (rnd_0 rnd HR), Rmult_0_r, (rnd_0 rnd HR). unfold Rdiv. rewrite Rmult_0_l. apply (rnd_0 rnd HR). Qed.

  Lemma hampel_val : forall c b r v, rnd b = b -> rnd r = r -> 1 <= c -> c < b -> b < r -> 0 <= v ->
    w1 MHampel c b r v = if Rle_dec v c then 1 else if Rle_dec v b then rnd (c / v) else if Rle_dec v r then tail_w c b r v else 0.
  Proof.
    intros c b r v Hb Hr Hc Hcb Hbr Hv.
    assert (LT : forall x y, y <= x -> Rltb x y = false) by (intros x y Hxy; destruct (Rltb x y) eqn:E; [rcmp_all; lra|reflexivity]).
    assert (LE : forall x y, y < x -> Rleb x y = false) by (intros x y Hxy; destruct (Rleb x y) eqn:E; [rcmp_all; lra|reflexivity]).
    unfold w1. cbn. destruct (Rle_dec v c) as [H|H].
    - rewrite (proj2 (Rleb_true v c)) by lra. rewrite (LT c 1) by lra. cbn. rewrite (LT b 1) by lra. cbn. rewrite (LT r 1) by lra. reflexivity.
    - rewrite (LE v c) by lra. rewrite (proj2 (Rltb_true c v)) by lra. cbn. destruct (Rle_dec v b) as [H1|H1].
      + rewrite (proj2 (Rleb_true v b)) by lra. rewrite (Rabs_right v) by lra. assert (HQ : rnd (c / v) <= 1) by (apply rnd_le1, quot_01; lra).
        rewrite (LT b) by lra. cbn. rewrite (LT r) by lra. reflexivity.
      + rewrite (LE v b) by lra. rewrite (proj2 (Rltb_true b v)) by lra. cbn. destruct (Rle_dec v r) as [H2|H2].
        * rewrite (proj2 (Rleb_true v r)) by lra. rewrite (Rabs_right v) by lra. fold (tail_w c b r v).
          assert (HQ : tail_w c b r v <= 1) by (apply tail_01; lra). rewrite (LT r) by lra. reflexivity.
        * rewrite (LE v r) by lra. rewrite (proj2 (Rltb_true r v)) by lra. reflexivity.
  Qed.
  Lemma quot_w_01 : forall c v, 0 < c -> c < v -> 0 <= rnd (c / v) <= 1.
  Proof. intros c v Hc Hv. destruct (quot_01 c v) as [A B]; try lra. split; [apply rnd_nonneg, A|apply rnd_le1, B]. Qed.
End W.
Lemma weights_l : forall rnd f c b r x, rounding rnd -> cutoffs_ok f c b r -> rnd c = c -> rnd b = b -> rnd r = r -> nonneg x ->
  length (@mweights R (Num_rnd rnd) f c b r x) = length x /\
  (forall i, (i < length x)%nat -> 0 <= nth i (@mweights R (Num_rnd rnd) f c b r x) 0 <= 1) /\
  (forall i, (i < length x)%nat -> f <> MFair -> nth i x 0 <= c -> nth i (@mweights R (Num_rnd rnd) f c b r x) 0 = 1) /\
  (forall i, (i < length x)%nat -> f = MHampel -> r <= nth i x 0 -> nth i (@mweights R (Num_rnd rnd) f c b r x) 0 = 0) /\
  (forall i j, (i < length x)%nat -> (j < length x)%nat -> nth i x 0 <= nth j x 0 -> f = MHampel -> ~ (c < nth i x 0 <= b /\ b < nth j x 0 < r) ->
     nth j (@mweights R (Num_rnd rnd) f c b r x) 0 <= nth i (@mweights R (Num_rnd rnd) f c b r x) 0) /\
  (forall i j, (i < length x)%nat -> (j < length x)%nat -> nth i x 0 <= nth j x 0 -> f <> MHampel ->
     nth j (@mweights R (Num_rnd rnd) f c b r x) 0 <= nth i (@mweights R (Num_rnd rnd) f c b r x) 0).
Proof.
  intros rnd f c b r x HR HC Hc Hb Hr Hx. assert (HX : forall i, (i < length x)%nat -> 0 <= nth i x 0) by (intros i Hi; apply (proj1 (Forall_forall _ _) Hx), nth_In, Hi).
  assert (HV : forall i, (i < length x)%nat -> 0 <= nth i (@mweights R (Num_rnd rnd) f c b r x) 0 <= 1).
  { intros i Hi. rewrite nth_w1 by exact Hi. pose proof (HX i Hi) as H0. destruct f; cbn in HC.
    - rewrite (fair_val rnd HR) by exact Hc. pose proof (fair_sq rnd HR c (nth i x 0)). split; [apply rnd_nonneg; [exact HR|]|apply rnd_le1; [exact HR|]]; apply quot_01; lra.
    - rewrite (huber_val rnd) by lra. destruct Rle_dec; [lra|apply quot_w_01; [exact HR|lra|lra]].
    - rewrite (hampel_val rnd HR) by lra. destruct Rle_dec; [lra|]. destruct Rle_dec; [apply quot_w_01; [exact HR|lra|lra]|]. destruct Rle_dec; [apply tail_01; auto; lra|lra]. }
  split; [apply len_w|]. split; [exact HV|]. split.
  - intros i Hi Hf Hic. rewrite nth_w1 by exact Hi. pose proof (HX i Hi). destruct f; cbn in HC; [congruence| |].
    + rewrite (huber_val rnd) by lra. destruct Rle_dec; [reflexivity|lra].
    + rewrite (hampel_val rnd HR) by lra. destruct Rle_dec; [reflexivity|lra].
  - split.
    + intros i Hi -> Hir. cbn in HC. rewrite nth_w1 by exact Hi. pose proof (HX i Hi). rewrite (hampel_val rnd HR) by lra.
      destruct Rle_dec; [lra|]. destruct Rle_dec; [lra|]. destruct Rle_dec; [|reflexivity]. replace (nth i x 0) with r by lra. apply tail_end, HR.
    + split.
      * intros i j Hi Hj Hij -> Hs. pose proof (HV i Hi) as Vi. pose proof (HV j Hj) as Vj. cbn in HC. rewrite !nth_w1 in * by assumption. pose proof (HX i Hi). pose proof (HX j Hj).
        rewrite !(hampel_val rnd HR) in * by lra. destruct (Rle_dec (nth i x 0) c); [exact (proj2 Vj)|]. destruct (Rle_dec (nth j x 0) c); [lra|].
        destruct (Rle_dec (nth i x 0) b).
        -- destruct (Rle_dec (nth j x 0) b); [apply (rnd_mono rnd HR), quot_le; lra|]. destruct (Rle_dec (nth j x 0) r); [|exact (proj1 Vi)].
           destruct (Rlt_dec (nth j x 0) r); [exfalso; apply Hs; lra|]. replace (nth j x 0) with r by lra. rewrite tail_end by exact HR. exact (proj1 Vi).
        -- destruct (Rle_dec (nth j x 0) b); [lra|]. destruct (Rle_dec (nth j x 0) r); [|exact (proj1 Vi)]. destruct (Rle_dec (nth i x 0) r); [|lra]. apply tail_mono; auto; lra.
      * intros i j Hi Hj Hij Hf. pose proof (HV j Hj) as Vj. rewrite !nth_w1 in * by assumption. pose proof (HX i Hi). pose proof (HX j Hj). destruct f; cbn in HC; [| |congruence].
        -- rewrite !(fair_val rnd HR) by exact Hc. apply (rnd_mono rnd HR). pose proof (fair_sq rnd HR c (nth i x 0)). pose proof (fair_ge1 rnd HR c (nth i x 0)).
           pose proof (fair_mono rnd HR c _ _ HC (HX i Hi) Hij). apply quot_le; try lra. apply (rnd_mono rnd HR). nra.
        -- rewrite !(huber_val rnd) in * by lra. destruct (Rle_dec (nth i x 0) c); [exact (proj2 Vj)|]. destruct (Rle_dec (nth j x 0) c); [lra|]. apply (rnd_mono rnd HR), quot_le; lra.
Qed.

(** the same evaluations with the scale as an integer *)
Lemma bpow_neg : forall k, (0 <= k)%Z -> bpow radix2 (- k) = / IZR (2 ^ k).
Proof. intros k Hk. rewrite bpow_opp. f_equal. symmetry. apply (IZR_Zpower radix2). exact Hk. Qed.
Lemma val64 : forall x m k, (0 <= k <= 1074)%Z -> (4503599627370496 < m < 9007199254740991)%Z -> Rabs (x * IZR (2 ^ k) - IZR m) < /2 -> binary64 x = IZR m / IZR (2 ^ k).
Proof.
  intros x m k Hk Hm Hx. rewrite (b64_val x m (- k)); [|lia|exact Hm|]. unfold Rdiv. rewrite bpow_neg by lia. reflexivity.
  rewrite Z.opp_involutive. rewrite <- (IZR_Zpower radix2) by lia. exact Hx.
Qed.
Lemma tie64 : forall x m m' k, (0 <= k <= 1074)%Z -> (4503599627370496 <= m)%Z -> (m < 9007199254740991)%Z -> x * IZR (2 ^ k) = IZR m + /2 -> m' = (if Z.even m then m else m + 1)%Z -> binary64 x = IZR m' / IZR (2 ^ k).
Proof.
  intros x m m' k Hk Hm1 Hm2 Hx Hm'. rewrite (b64_tie x m m' (- k)); [|lia|exact Hm1|exact Hm2| |exact Hm']. unfold Rdiv. rewrite bpow_neg by lia. reflexivity.
  rewrite Z.opp_involutive. rewrite <- (IZR_Zpower radix2) by lia. exact Hx.
Qed.
Lemma exact64 : forall m k, (0 <= k <= 1074)%Z -> (Z.abs m < 9007199254740992)%Z -> binary64 (IZR m / IZR (2 ^ k)) = IZR m / IZR (2 ^ k).
Proof. intros m k Hk Hm. apply (b64_exact _ m (- k)); [lia|exact Hm|]. rewrite bpow_neg by lia. reflexivity. Qed.
Lemma int64 : forall m, (Z.abs m < 9007199254740992)%Z -> binary64 (IZR m) = IZR m.
Proof. intros m Hm. apply (b64_exact _ m 0); [lia|exact Hm|]. cbn. ring. Qed.

(** ** Hampel's weights around the second cut-off *)
Definition hc : R := 7908185495573586 / 4503599627370496.
Definition hb : R := 8915420504263087 / 2251799813685248.
Definition hr : R := 6992271598637416 / 562949953421312.
Definition hv : R := 8915420504263088 / 2251799813685248.
Lemma hampel_jump : w1 binary64 MHampel hc hb hr hb < w1 binary64 MHampel hc hb hr hv.
Proof.
  assert (Eb : binary64 hb = hb) by (apply (exact64 8915420504263087 51); lia).
  assert (Er : binary64 hr = hr) by (apply (exact64 6992271598637416 49); lia).
  rewrite !(hampel_val binary64 binary64_rounding) by (auto; unfold hc, hb, hr, hv; lra).
  destruct (Rle_dec hb hc) as [H|H]; [exfalso; revert H; unfold hb, hc; lra|clear H]. destruct (Rle_dec hb hb) as [H|H]; [clear H|lra].
  destruct (Rle_dec hv hc) as [H|H]; [exfalso; revert H; unfold hv, hc; lra|clear H]. destruct (Rle_dec hv hb) as [H|H]; [exfalso; revert H; unfold hv, hb; lra|clear H].
  destruct (Rle_dec hv hr) as [H|H]; [clear H|exfalso; apply H; unfold hv, hr; lra].
  assert (Q : binary64 (hc / hb) = 7989595383417258 / 18014398509481984).
  { rewrite (val64 _ 7989595383417258 54); [cbn; reflexivity|lia|lia|]. unfold hc, hb. change (2 ^ 54)%Z with 18014398509481984%Z. apply Rabs_def1; lra. }
  assert (A1 : binary64 (hr - hv) = 4763416472571644 / 562949953421312).
  { rewrite (val64 _ 4763416472571644 49); [cbn; reflexivity|lia|lia|]. unfold hr, hv. change (2 ^ 49)%Z with 562949953421312%Z. apply Rabs_def1; lra. }
  assert (A2 : binary64 (hr - hb) = 4763416472571644 / 562949953421312).
  { rewrite (val64 _ 4763416472571644 49); [cbn; reflexivity|lia|lia|]. unfold hr, hb. change (2 ^ 49)%Z with 562949953421312%Z. apply Rabs_def1; lra. }
  unfold tail_w. rewrite Q, A1, A2.
  assert (A3 : binary64 (hc * (4763416472571644 / 562949953421312)) = 8364416061505369 / 562949953421312).
  { rewrite (val64 _ 8364416061505369 49); [cbn; reflexivity|lia|lia|]. unfold hc. change (2 ^ 49)%Z with 562949953421312%Z. apply Rabs_def1; lra. }
  assert (A4 : binary64 (4763416472571644 / 562949953421312 * hv) = 4714879696655603 / 140737488355328).
  { rewrite (val64 _ 4714879696655603 47); [cbn; reflexivity|lia|lia|]. unfold hv. change (2 ^ 47)%Z with 140737488355328%Z. apply Rabs_def1; lra. }
  rewrite A3, A4.
  assert (A5 : binary64 (8364416061505369 / 562949953421312 / (4714879696655603 / 140737488355328)) = 7989595383417259 / 18014398509481984).
  { rewrite (val64 _ 7989595383417259 54); [cbn; reflexivity|lia|lia|]. change (2 ^ 54)%Z with 18014398509481984%Z. apply Rabs_def1; lra. }
  rewrite A5. lra.
Qed.

(** ** Median, MAD and the scaler *)
Section Med.
  Variable rnd : R -> R.
  Local Notation N := (Num_rnd rnd).
  Definition medF (l : list R) : R := @vmedian R N l.
  Definition madF (l : list R) : R := rnd (medF (map (fun x => Rabs (rnd (x - medF l))) l) / rnd (6744897501960817 / 10000000000000000)).
  Lemma medF_perm : forall l l', Permutation l l' -> medF l = medF l'.
  Proof.
    intros l l' HP. unfold medF, vmedian. change (@sort R N) with (@sort R Num_R). rewrite (sort_permutation l l' HP), (Permutation_length HP).
    destruct l, l'; [reflexivity|apply Permutation_nil in HP; discriminate|symmetry in HP; apply Permutation_nil in HP; discriminate|reflexivity].
  Qed.
  Lemma medF_val : forall l, l <> [] -> medF l = if Nat.even (length l) then rnd (rnd (nth (length l / 2 - 1) (sort l) 0 + nth (length l / 2) (sort l) 0) / rnd (2 / 1)) else nth (length l / 2) (sort l) 0.
  Proof. intros l Hl. unfold medF, vmedian. destruct l; [congruence|]. reflexivity. Qed.
  Lemma median_N : forall X, @median R N X = map medF (@cols R Num_R X).
  Proof. intros X. unfold median. change (@manynan R N X) with (@manynan R Num_R X). rewrite manynan_R. reflexivity. Qed.
  Lemma median_N_len : forall n p X, wf n p X -> (0 < n)%nat -> length (@median R N X) = p.
  Proof. intros n p X W Hn. rewrite median_N, map_length, cols_length. apply (wf_ncols n p); auto. Qed.
  Lemma median_N_nth : forall n p X j, wf n p X -> (0 < n)%nat -> (j < p)%nat -> nth j (@median R N X) 0 = medF (@col R Num_R j X).
  Proof. intros n p X j W Hn Hj. rewrite median_N. apply (map_cols_nth medF). rewrite (wf_ncols n p); auto. Qed.
  Lemma mad_N_len : forall n p X, wf n p X -> (0 < n)%nat -> length (@mad R N X) = p.
  Proof. intros n p X W Hn. unfold mad, mad_with. rewrite map_length. apply (median_N_len n p); auto. apply wf_mapmap. apply wf_map2_rows; auto. apply (median_N_len n p); auto. Qed.
  Lemma mad_N_nth : forall n p X j, wf n p X -> (0 < n)%nat -> (j < p)%nat -> nth j (@mad R N X) 0 = madF (@col R Num_R j X).
  Proof.
    intros n p X j W Hn Hj. unfold mad, mad_with. pose proof (median_N_len n p X W Hn) as Hl.
    assert (W' : wf n p (map (map nabs) (@rows_op R (@nsub R N) X (@median R N X)))) by (apply wf_mapmap; apply wf_map2_rows; auto).
    rewrite (nth_map_lt _ _ _ 0) by (rewrite (median_N_len n p); auto). unfold madF. rewrite (median_N_nth n p) by auto.
    change (rnd (medF (@col R Num_R j (map (map (@nabs R Num_R)) (@rows_op R (@nsub R N) X (@median R N X)))) / rnd (6744897501960817 / 10000000000000000)) = rnd (medF (map (fun x => Rabs (rnd (x - medF (@col R Num_R j X)))) (@col R Num_R j X)) / rnd (6744897501960817 / 10000000000000000))).
    do 3 f_equal. rewrite (col_mapmap n p); [|apply wf_map2_rows; auto|auto].
    unfold rows_op. rewrite (col_map2_rows n p) by auto. rewrite map_map. rewrite (median_N_nth n p) by auto. reflexivity.
  Qed.
  Lemma median_N_perm : forall n p X Y, wf n p X -> (0 < n)%nat -> Permutation X Y -> @median R N X = @median R N Y.
  Proof. intros n p X Y W Hn HP. rewrite !median_N. apply (cols_perm_map medF n p); auto. apply medF_perm. Qed.
  Lemma mad_N_perm : forall n p X Y, wf n p X -> (0 < n)%nat -> Permutation X Y -> @mad R N X = @mad R N Y.
  Proof.
    intros n p X Y W Hn HP. unfold mad, mad_with. rewrite (median_N_perm n p X Y) by auto. f_equal. apply (median_N_perm n p); auto.
    - apply wf_mapmap. apply wf_map2_rows; auto. apply (median_N_len n p); auto. apply (wf_perm n p X); auto.
    - apply Permutation_map, rows_op_perm, HP.
  Qed.
  Lemma reorder_scale_N : forall n p o (X : list (list R)) m s, case_order n o -> wf n p X -> (0 < n)%nat ->
    @scale_data R N (reorder o X) m s = match @scale_data R N X m s with Ok Z => Ok (reorder o Z) | Err e => Err e end.
  Proof.
    intros n p o X m s Ho HX Hn. assert (WO : wf n p (reorder o X)) by (apply reorder_wf; auto). unfold scale_data. change (@ncols R) with (@ncols R). rewrite (wf_ncols n p X), (wf_ncols n p (reorder o X)) by auto.
    destruct (p =? 1)%nat.
    - destruct m as [|m0 m]; [reflexivity|]. destruct (handle_zeros s); [reflexivity|]. rewrite <- reorder_map. reflexivity.
    - destruct (length m =? p)%nat.
      + cbn [bind]. destruct (length (handle_zeros s) =? p)%nat; [unfold rows_op; rewrite <- !reorder_map; reflexivity|].
        destruct (handle_zeros s) as [|s0 [|]]; try reflexivity. unfold rows_op; rewrite <- !reorder_map; reflexivity.
      + destruct m as [|m0 [|]]; try reflexivity. cbn [bind]. destruct (length (handle_zeros s) =? p)%nat; [unfold rows_op; rewrite <- !reorder_map; reflexivity|].
        destruct (handle_zeros s) as [|s0 [|]]; try reflexivity. rewrite <- !reorder_map; reflexivity.
  Qed.
  Lemma order_l : forall env c s t n p X o, (c = CMedian \/ c = CNone) -> (s = SMad \/ s = SNone) -> wf n p X -> (2 <= n)%nat -> case_order n o ->
    let F := fun Y => @sc_fit_transform R N env (@new_scaler R c s t) (A2 Y) in
    a_center (fst (F (reorder o X))) = a_center (fst (F X)) /\ a_scale (fst (F (reorder o X))) = a_scale (fst (F X)) /\
    snd (F (reorder o X)) = match snd (F X) with Ok Z => Ok (reorder o Z) | Err e => Err e end.
  Proof.
    intros env c s t n p X o Hc Hs W Hn Ho F. assert (WO : wf n p (reorder o X)) by (apply reorder_wf; auto).
    assert (HP : Permutation (reorder o X) X) by (symmetry; apply (reorder_perm n); auto; apply W).
    assert (EL : @location R N env c t (reorder o X) = @location R N env c t X).
    { destruct Hc as [-> | ->]; cbn [location]; f_equal; [apply (median_N_perm n p); auto; lia|]. rewrite (wf_ncols n p X), (wf_ncols n p (reorder o X)) by (auto; lia). reflexivity. }
    assert (ES : @scale_est R N env s t (reorder o X) = @scale_est R N env s t X).
    { destruct Hs as [-> | ->]; cbn [scale_est]; f_equal; [apply (mad_N_perm n p); auto; lia|]. rewrite (wf_ncols n p X), (wf_ncols n p (reorder o X)) by (auto; lia). reflexivity. }
    subst F. cbv beta. unfold sc_fit_transform, sc_fit. cbn [sc_trimming sc_center sc_scale new_scaler]. rewrite !(check_input_id n p) by auto. rewrite EL, ES.
    destruct (check_trimming t); cbn; [|auto]. destruct (is_bad c s); cbn; [auto|]. destruct (location env c t X) as [m|e]; cbn; [|auto].
    destruct (scale_est env s t X) as [v|e]; cbn; [|auto]. unfold sc_transform. cbn. fold (check_input (A2 (reorder o X))) (check_input (A2 X)). rewrite !(check_input_id n p) by auto. rewrite (reorder_scale_N n p) by (auto; lia).
    destruct (scale_data X m v); cbn; auto.
  Qed.
End Med.

Section Med2.
  Variable rnd : R -> R.
  Hypothesis HR : rounding rnd.
  Local Notation N := (Num_rnd rnd).
  Definition hz (s : R) : R := if Reqb s 0 then 1 else s.

  Lemma fit_cells : forall env n p X, wf n p X -> (2 <= n)%nat -> (1 <= p)%nat ->
    exists st Z, @sc_fit_transform R N env (@new_scaler R CMedian SMad 0) (A2 X) = (st, Ok Z) /\ wf n p Z /\ a_center st = Some (@median R N X) /\ a_scale st = Some (@mad R N X) /\
      forall i j, (i < n)%nat -> (j < p)%nat -> cell Z i j = rnd (rnd (cell X i j - medF rnd (column j X)) / hz (madF rnd (column j X))).
  Proof.
    intros env n p X W Hn Hp. unfold sc_fit_transform, sc_fit. cbn [sc_trimming sc_center sc_scale new_scaler]. rewrite (check_input_id n p) by auto.
    assert (ET : @check_trimming R N 0 = Ok tt).
    { unfold check_trimming, raise_if. cbn. assert (H : 0 <= rnd (99 / 100)) by (apply rnd_nonneg; [exact HR|lra]). rewrite (proj2 (Rltb_false (rnd (99 / 100)) 0)) by lra. rewrite (proj2 (Rltb_false 0 0)) by lra. reflexivity. }
    rewrite ET. cbn [is_bad location scale_est]. unfold sc_transform. cbn [a_center a_scale]. rewrite (check_input_id n p) by auto.
    pose proof (median_N_len rnd n p X W ltac:(lia)) as Lm. pose proof (mad_N_len rnd n p X W ltac:(lia)) as Ls.
    assert (EC : exists Z, @scale_data R N X (@median R N X) (@mad R N X) = Ok Z /\ wf n p Z /\ forall i j, (i < n)%nat -> (j < p)%nat -> mget Z i j = rnd (rnd (mget X i j - nth j (@median R N X) 0) / hz (nth j (@mad R N X) 0))).
    { unfold scale_data. rewrite (wf_ncols n p) by (auto; lia). destruct (Nat.eqb_spec p 1) as [->|Hp1].
      - destruct (@median R N X) as [|m0 m]; [cbn in Lm; lia|]. destruct (@mad R N X) as [|s0 s]; [cbn in Ls; lia|]. cbn [handle_zeros map].
        eexists; split; [reflexivity|]. split; [apply wf_mapmap, W|]. intros i j Hi Hj. assert (j = 0)%nat by lia. subst j. rewrite (mget_mapmap n 1) by auto. reflexivity.
      - assert (Lh : length (@handle_zeros R N (@mad R N X)) = p) by (unfold handle_zeros; rewrite map_length; exact Ls). rewrite Lm, Lh, Nat.eqb_refl. cbn [bind].
        eexists; split; [reflexivity|]. assert (W1 : wf n p (@rows_op R (@nsub R N) X (@median R N X))) by (apply wf_map2_rows; auto).
        split; [apply wf_map2_rows; auto|]. intros i j Hi Hj. unfold rows_op at 1. rewrite (mget_map2_rows n p) by auto. unfold rows_op. rewrite (mget_map2_rows n p) by auto.
        unfold handle_zeros. change (@n0 R Num_R) with 0. rewrite (nth_map_lt _ _ _ 0) by lia. reflexivity. }
    destruct EC as (Z & EZ & WZ & HC). rewrite EZ. cbn. eexists; exists Z. split; [reflexivity|]. split; [exact WZ|]. split; [reflexivity|]. split; [reflexivity|].
    intros i j Hi Hj. pose proof (HC i j Hi Hj) as E. rewrite (median_N_nth rnd n p), (mad_N_nth rnd n p) in E by (auto; lia). exact E.
  Qed.

  Lemma half_two : forall x, rnd x = x -> rnd (2 * x / 2) = x.
  Proof. intros x Hx. replace (2 * x / 2) with x by field. exact Hx. Qed.
  Lemma sort_repr : forall l i, Forall (fun x => rnd x = x) l -> (i < length l)%nat -> rnd (nth i (sort l) 0) = nth i (sort l) 0.
  Proof. intros l i Hl Hi. rewrite Forall_forall in Hl. apply Hl. apply (Permutation_in _ (Permutation_sym (sort_perm l))). apply nth_In. rewrite sort_length. exact Hi. Qed.
  Lemma sorted_nth : forall (l : list R) i j, Sorted.StronglySorted Rle l -> (i <= j)%nat -> (j < length l)%nat -> nth i l 0 <= nth j l 0.
  Proof.
    intros l i j H. revert i j. induction H as [|a l H IH Ha]; intros i j Hij Hj; [cbn in Hj; lia|].
    destruct i, j; cbn; [lra| |lia|apply IH; cbn in Hj; lia]. rewrite Forall_forall in Ha. apply Ha, nth_In. cbn in Hj; lia.
  Qed.
  Lemma medF_mid : forall l, l <> [] -> Forall (fun x => rnd x = x) l -> nth ((length l - 1) / 2) (sort l) 0 <= medF rnd l <= nth (length l / 2) (sort l) 0.
  Proof.
    intros l Hl HF. rewrite medF_val by exact Hl. destruct (Nat.even (length l)) eqn:E.
    - apply Nat.even_spec in E as [k Ek]. assert (Hk : (0 < k)%nat) by (destruct l; [congruence|cbn in Ek; lia]).
      assert (E1 : (length l / 2 = k)%nat) by (rewrite Ek, Nat.mul_comm, Nat.div_mul; lia).
      assert (E2 : ((length l - 1) / 2 = k - 1)%nat) by (rewrite Ek; replace (2 * k - 1)%nat with (1 + (k - 1) * 2)%nat by lia; rewrite Nat.div_add by lia; cbn; lia).
      rewrite E1, E2. set (a := nth (k - 1) (sort l) 0). set (b := nth k (sort l) 0).
      assert (Ha : rnd a = a) by (apply sort_repr; auto; lia). assert (Hb : rnd b = b) by (apply sort_repr; auto; lia).
      assert (Hab : a <= b) by (apply sorted_nth; [apply sort_sorted|lia|rewrite sort_length; lia]).
      replace (2 / 1) with 2 by field. rewrite (rnd_2 rnd HR).
      pose proof (rnd_mono rnd HR (2 * a) (a + b) ltac:(lra)) as L1. pose proof (rnd_mono rnd HR (a + b) (2 * b) ltac:(lra)) as L2.
      rewrite (rnd_double rnd HR) in L1, L2 by assumption. split.
      + rewrite <- Ha at 1. apply (rnd_mono rnd HR). lra.
      + rewrite <- Hb at 2. apply (rnd_mono rnd HR). lra.
    - assert (O : Nat.odd (length l) = true) by (unfold Nat.odd; rewrite E; reflexivity). apply Nat.odd_spec in O as [k Ek].
      assert (E2 : ((length l - 1) / 2 = k)%nat) by (rewrite Ek; replace (2 * k + 1 - 1)%nat with (k * 2)%nat by lia; apply Nat.div_mul; lia).
      assert (E1 : (length l / 2 = k)%nat) by (rewrite Ek; replace (2 * k + 1)%nat with (1 + k * 2)%nat by lia; rewrite Nat.div_add by lia; cbn; lia).
      rewrite E1, E2. lra.
  Qed.
  Lemma medF_const : forall l a, l <> [] -> rnd a = a -> Forall (fun x => x = a) l -> medF rnd l = a.
  Proof.
    intros l a Hl Ha HF. assert (HS : forall i, (i < length l)%nat -> nth i (sort l) 0 = a).
    { intros i Hi. rewrite Forall_forall in HF. apply HF. apply (Permutation_in _ (Permutation_sym (sort_perm l))). apply nth_In. rewrite sort_length. exact Hi. }
    assert (HL : (0 < length l)%nat) by (destruct l; [congruence|cbn; lia]).
    pose proof (medF_mid l Hl ltac:(eapply Forall_impl; [|exact HF]; cbn; intros; subst; exact Ha)) as [L1 L2]. rewrite HS in L1, L2; [lra| |].
    - apply Nat.div_lt; lia.
    - apply Nat.div_lt_upper_bound; lia.
  Qed.
  Lemma madF_nonneg : forall l, l <> [] -> 0 <= madF rnd l.
  Proof.
    intros l Hl. unfold madF. assert (HC : /2 <= rnd (6744897501960817 / 10000000000000000)) by (rewrite <- (rnd_half rnd HR); apply (rnd_mono rnd HR); lra).
    apply rnd_nonneg; [exact HR|]. apply Rmult_le_pos; [|apply Rlt_le, Rinv_0_lt_compat; lra].
    set (d := map _ l). assert (Hd : d <> []) by (subst d; destruct l; [congruence|discriminate]).
    assert (HF : Forall (fun x => rnd x = x) d).
    { subst d. apply Forall_forall. intros x Hx. apply in_map_iff in Hx as (y & <- & _). destruct (Rcase_abs (rnd (y - medF rnd l))) as [H|H]; [rewrite Rabs_left by exact H; rewrite (rnd_opp rnd HR)|rewrite Rabs_right by exact H]; rewrite (rnd_idem rnd HR); reflexivity. }
    apply Rle_trans with (nth ((length d - 1) / 2) (sort d) 0); [|apply (medF_mid d Hd HF)].
    assert (HL : (0 < length d)%nat) by (destruct d; [congruence|cbn; lia]).
    assert (HI : In (nth ((length d - 1) / 2) (sort d) 0) d). { apply (Permutation_in _ (Permutation_sym (sort_perm d))), nth_In. rewrite sort_length. apply Nat.div_lt_upper_bound; lia. }
    subst d. apply in_map_iff in HI as (y & <- & _). apply Rabs_pos.
  Qed.
  Lemma hz_pos : forall s, 0 <= s -> 0 < hz s.
  Proof. intros s Hs. unfold hz. destruct (Reqb s 0) eqn:E; rcmp_all; lra. Qed.
  Lemma madF_const : forall l a, l <> [] -> rnd a = a -> Forall (fun x => x = a) l -> madF rnd l = 0.
  Proof.
    intros l a Hl Ha HF. unfold madF. rewrite (medF_const l a Hl Ha HF). rewrite (medF_const _ 0).
    - unfold Rdiv. rewrite Rmult_0_l. apply (rnd_0 rnd HR).
    - destruct l; [congruence|discriminate].
    - apply (rnd_0 rnd HR).
    - apply Forall_forall. intros x Hx. apply in_map_iff in Hx as (y & <- & Hy). rewrite Forall_forall in HF. rewrite (HF y Hy). replace (a - a) with 0 by ring. rewrite (rnd_0 rnd HR). apply Rabs_R0.
  Qed.
End Med2.

(** ** three copies of 0.1 *)
Definition tenth : R := 7205759403792794 / 72057594037927936.
Lemma tenth_is : binary64 (1 / 10) = tenth.
Proof. rewrite (val64 _ 7205759403792794 56); [reflexivity|lia|lia|]. change (2 ^ 56)%Z with 72057594037927936%Z. apply Rabs_def1; lra. Qed.
Lemma tenth_fit : forall env, @sc_fit_transform R (Num_rnd binary64) env (@new_scaler R CMean SStd 0) (A2 [[tenth]; [tenth]; [tenth]]) =
  (mk_scaler CMean SStd 0 (Some [7205759403792795 / 72057594037927936]) (Some [7205759403792795 / 72057594037927936]) (Some [1 / 72057594037927936]) (Some [1 / 72057594037927936]) (Some [[-1]; [-1]; [-1]]) None, Ok [[-1]; [-1]; [-1]]).
Proof.
  intros env. pose proof binary64_rounding as HR.
  assert (ET : @check_trimming R (Num_rnd binary64) 0 = Ok tt).
  { unfold check_trimming, raise_if. cbn. assert (H : 0 <= binary64 (99 / 100)) by (apply rnd_nonneg; [exact HR|lra]). rewrite (proj2 (Rltb_false (binary64 (99 / 100)) 0)) by lra. rewrite (proj2 (Rltb_false 0 0)) by lra. reflexivity. }
  assert (E0 : binary64 (tenth + 0) = tenth) by (rewrite Rplus_0_r; apply (exact64 7205759403792794 56); lia).
  assert (E1 : binary64 (tenth + tenth) = 14411518807585588 / 72057594037927936).
  { replace (tenth + tenth) with (2 * tenth) by ring. rewrite (rnd_double _ HR) by (apply (exact64 7205759403792794 56); lia). unfold tenth. lra. }
  assert (E2 : binary64 (tenth + 14411518807585588 / 72057594037927936) = 21617278211378384 / 72057594037927936).
  { rewrite (tie64 _ 5404319552844595 5404319552844596 54); [cbn; lra|lia|lia|lia| |reflexivity]. change (2 ^ 54)%Z with 18014398509481984%Z. unfold tenth. lra. }
  assert (E3 : binary64 (3 / 1) = 3) by (replace (3 / 1) with 3 by field; apply int64; lia).
  assert (E4 : binary64 (21617278211378384 / 72057594037927936 / 3) = 7205759403792795 / 72057594037927936).
  { rewrite (val64 _ 7205759403792795 56); [reflexivity|lia|lia|]. change (2 ^ 56)%Z with 72057594037927936%Z. apply Rabs_def1; lra. }
  set (mu := 7205759403792795 / 72057594037927936) in *.
  assert (E5 : binary64 (tenth - mu) = -1 / 72057594037927936).
  { replace (tenth - mu) with (-1 / 72057594037927936) by (unfold tenth, mu; lra). apply (exact64 (-1) 56); lia. }
  set (q := 72057594037927936) in *. set (d := / (q * q)).
  assert (Eq : forall m, (Z.abs m < 9007199254740992)%Z -> binary64 (IZR m * d) = IZR m * d).
  { intros m Hm. replace d with (/ IZR (2 ^ 112)) by (unfold d, q; f_equal; rewrite <- mult_IZR; reflexivity). apply (exact64 m 112); lia. }
  assert (Hd : 0 < d) by (unfold d; apply Rinv_0_lt_compat; unfold q; lra).
  assert (E6 : binary64 (-1 / q * (-1 / q)) = d) by (replace (-1 / q * (-1 / q)) with (1 * d) by (unfold d; field; unfold q; lra); rewrite Eq by lia; ring).
  assert (E7 : binary64 (d + 0) = d) by (replace (d + 0) with (1 * d) by ring; rewrite Eq by lia; ring).
  assert (E8 : binary64 (d + d) = 2 * d) by (replace (d + d) with (2 * d) by ring; apply Eq; lia).
  assert (E9 : binary64 (d + 2 * d) = 3 * d) by (replace (d + 2 * d) with (3 * d) by ring; apply Eq; lia).
  assert (E10 : binary64 (3 * d / 3) = d) by (replace (3 * d / 3) with (1 * d) by field; rewrite Eq by lia; ring).
  assert (E11 : binary64 (sqrt d) = 1 / q).
  { replace (sqrt d) with (1 / q). apply (exact64 1 56); lia. symmetry. apply sqrt_lem_1; [lra|unfold q; lra|]. unfold d. field. unfold q; lra. }
  assert (E12 : binary64 (-1 / q / (1 / q)) = -1) by (replace (-1 / q / (1 / q)) with (-1) by (field; unfold q; lra); apply int64; lia).
  unfold sc_fit_transform, sc_fit. cbn [sc_trimming sc_center sc_scale new_scaler]. rewrite ET.
  assert (EM : @vmean R (Num_rnd binary64) [tenth; tenth; tenth] = mu) by (unfold vmean, nnat, nZ; cbn; rewrite E0, E1, E2, E3, E4; reflexivity).
  assert (EV : @vvar R (Num_rnd binary64) [tenth; tenth; tenth] = d) by (unfold vvar; rewrite EM; unfold vmean, nnat, nZ, nsqr; cbn; rewrite E5, E6, E7, E8, E9, E3, E10; reflexivity).
  assert (EN : @manynan R (Num_rnd binary64) [[tenth]; [tenth]; [tenth]] = false) by (apply (manynan_R [[tenth]; [tenth]; [tenth]])).
  cbn [is_bad location scale_est]. change (check_input (A2 [[tenth]; [tenth]; [tenth]])) with [[tenth]; [tenth]; [tenth]].
  unfold mean, std. rewrite EN. change (@neqb R (Num_rnd binary64) 0 (@n0 R (Num_rnd binary64))) with (Reqb 0 0). rewrite Reqb_refl.
  change (@cols R (Num_rnd binary64) [[tenth]; [tenth]; [tenth]]) with [[tenth; tenth; tenth]]. cbn [map]. rewrite EM, EV. change (@nsqrt R (Num_rnd binary64) d) with (binary64 (sqrt d)). rewrite E11.
  unfold sc_transform. cbn [a_center a_scale]. change (check_input (A2 [[tenth]; [tenth]; [tenth]])) with [[tenth]; [tenth]; [tenth]].
  unfold scale_data. cbn. assert (HN : Reqb (1 / q) 0 = false) by (apply Reqb_false; assert (0 < 1 / q) by (unfold q; lra); lra). rewrite HN. rewrite E5, E12. reflexivity.
Qed.
