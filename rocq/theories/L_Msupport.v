(** Lemmas for the M-estimation support functions (C25-C29, C84). *)

From Coq Require Import Reals List Arith ZArith Bool Lia Lra Permutation.
Import ListNotations.
From Verif Require Import Num Err Vec VecR OrdR L_Mat S_Stats S_Weights L_Stats M_Utils M_Preproc M_Msupport L_Lin L_Preproc.
Open Scope R_scope.

(** pointwise form *)
Definition fair1 (c v : R) : R := 1 / ((1 + Rabs (v / (c * 2))) * (1 + Rabs (v / (c * 2)))).
Definition huber1 (c v : R) : R :=
  let v1 := if Rleb v c then 1 else v in if Rltb c v1 then c / Rabs v1 else v1.
Definition hampel1 (c b r v : R) : R :=
  let v1 := if Rleb v c then 1 else v in
  let v2 := if Rltb c v1 && Rleb v1 b then c / Rabs v1 else v1 in
  let v3 := if Rltb b v2 && Rleb v2 r then (c * (r - v2)) / ((r - b) * Rabs v2) else v2 in
  if Rltb r v3 then 0 else v3.
Definition mweight1 (f : mfun) (c b r v : R) : R :=
  match f with MFair => fair1 c v | MHuber => huber1 c v | MHampel => hampel1 c b r v end.

Lemma mweights_map : forall f c b r (x : list R), mweights f c b r x = map (mweight1 f c b r) x.
Proof.
  intros f c b r x. destruct f; cbn [mweights mweight1].
  - unfold Fair, fair1. apply map_ext. intros v. unfold nsqr. rewrite (nnat_R 2). rnum. reflexivity.
  - unfold Huber, huber1, upd. rewrite map_map. apply map_ext. intros v. rnum. reflexivity.
  - unfold Hampel, hampel1, upd. rewrite !map_map. apply map_ext. intros v. rnum. reflexivity.
Qed.

Lemma fair1_spec : forall c v, 0 < c -> fair1 c v = fair_weight c v.
Proof.
  intros c v Hc. unfold fair1, fair_weight. replace (Rabs (v / (c * 2))) with (Rabs v / (2 * c)); [reflexivity|].
  unfold Rdiv at 2. rewrite Rabs_mult, (Rabs_right (/ (c * 2))).
  - unfold Rdiv. rewrite (Rmult_comm 2 c). reflexivity.
  - left. apply Rinv_0_lt_compat. lra.
Qed.
Lemma huber1_spec : forall c v, 1 <= c -> 0 <= v -> huber1 c v = huber_weight c v.
Proof.
  intros c v Hc Hv. unfold huber1, huber_weight. unfold Rleb. destruct (Rle_dec v c).
  - unfold Rltb. destruct (Rlt_dec c 1); [lra|reflexivity].
  - unfold Rltb. destruct (Rlt_dec c v); [|lra]. rewrite Rabs_right by lra. reflexivity.
Qed.
Lemma div_lt_1 : forall a b, 0 < b -> a < b -> a / b < 1.
Proof. intros a b Hb H. apply (Rmult_lt_reg_r b); auto. unfold Rdiv. rewrite Rmult_assoc, Rinv_l by lra. lra. Qed.
Lemma div_pos_nonneg : forall a b, 0 < b -> 0 <= a -> 0 <= a / b.
Proof. intros a b Hb H. apply Rmult_le_pos; auto. left. apply Rinv_0_lt_compat; auto. Qed.
Lemma hampel_part : forall c b r v, 0 < c -> c < b -> b < r -> b < v <= r -> 0 <= c * (r - v) / ((r - b) * v) < 1.
Proof.
  intros c b r v Hc Hcb Hbr Hv. assert (0 < (r - b) * v) by (apply Rmult_lt_0_compat; lra). split.
  - apply div_pos_nonneg; auto. apply Rmult_le_pos; lra.
  - apply div_lt_1; auto. apply Rle_lt_trans with (c * (r - b)).
    + apply Rmult_le_compat_l; lra.
    + rewrite (Rmult_comm (r - b)). apply Rmult_lt_compat_r; lra.
Qed.
Lemma hampel1_spec : forall c b r v, 1 <= c -> c < b -> b < r -> 0 <= v -> hampel1 c b r v = hampel_weight c b r v.
Proof.
  intros c b r v Hc Hcb Hbr Hv. unfold hampel1, hampel_weight.
  destruct (Rle_dec v c) as [H1|H1].
  - replace (Rleb v c) with true by (symmetry; apply Rleb_true; auto).
    replace (Rltb c 1) with false by (symmetry; apply Rltb_false; lra). cbn [andb].
    replace (Rltb b 1) with false by (symmetry; apply Rltb_false; lra). cbn [andb].
    replace (Rltb r 1) with false by (symmetry; apply Rltb_false; lra). reflexivity.
  - replace (Rleb v c) with false by (symmetry; apply Rleb_false; lra).
    replace (Rltb c v) with true by (symmetry; apply Rltb_true; lra). cbn [andb].
    rewrite (Rabs_right v) by lra.
    destruct (Rle_dec v b) as [H2|H2].
    + replace (Rleb v b) with true by (symmetry; apply Rleb_true; auto).
      assert (c / v < 1) by (apply div_lt_1; lra).
      replace (Rltb b (c / v)) with false by (symmetry; apply Rltb_false; lra). cbn [andb].
      replace (Rltb r (c / v)) with false by (symmetry; apply Rltb_false; lra). reflexivity.
    + replace (Rleb v b) with false by (symmetry; apply Rleb_false; lra).
      replace (Rltb b v) with true by (symmetry; apply Rltb_true; lra). cbn [andb].
      destruct (Rle_dec v r) as [H3|H3].
      * replace (Rleb v r) with true by (symmetry; apply Rleb_true; auto). rewrite (Rabs_right v) by lra.
        pose proof (hampel_part c b r v ltac:(lra) Hcb Hbr ltac:(lra)) as [_ Hlt].
        replace (Rltb r (c * (r - v) / ((r - b) * v))) with false by (symmetry; apply Rltb_false; lra). reflexivity.
      * replace (Rleb v r) with false by (symmetry; apply Rleb_false; lra).
        replace (Rltb r v) with true by (symmetry; apply Rltb_true; lra). reflexivity.
Qed.

Lemma mweight1_textbook : forall f c b r v, cutoffs_ok f c b r -> 0 <= v -> mweight1 f c b r v = textbook f c b r v.
Proof.
  intros f c b r v Hc Hv. destruct f; cbn [mweight1 textbook cutoffs_ok] in *.
  - apply fair1_spec; auto.
  - apply huber1_spec; auto.
  - destruct Hc as (H1 & H2 & H3). apply hampel1_spec; auto.
Qed.

Lemma C26_textbook_l : forall f c b r x, cutoffs_ok f c b r -> nonneg x ->
  mweights f c b r x = map (textbook f c b r) x.
Proof.
  intros f c b r x Hc Hx. rewrite mweights_map. apply map_ext_in. intros v Hv. apply mweight1_textbook; auto.
  unfold nonneg in Hx. rewrite Forall_forall in Hx. auto.
Qed.

Lemma fair_range : forall c v, 0 < c -> 0 < fair_weight c v <= 1.
Proof.
  intros c v Hc. unfold fair_weight. assert (0 <= Rabs v / (2 * c)) by (apply div_pos_nonneg; [lra|apply Rabs_pos]).
  set (a := Rabs v / (2 * c)) in *. assert (1 <= (1 + a) * (1 + a)) by nra. split.
  - apply Rdiv_lt_0_compat; lra.
  - apply (Rmult_le_reg_r ((1 + a) * (1 + a))); [lra|]. unfold Rdiv. rewrite Rmult_assoc, Rinv_l by lra. lra.
Qed.
Lemma textbook_range : forall f c b r v, cutoffs_ok f c b r -> 0 <= v -> 0 <= textbook f c b r v <= 1.
Proof.
  intros f c b r v Hc Hv. destruct f; cbn [textbook cutoffs_ok] in *.
  - pose proof (fair_range c v Hc). lra.
  - unfold huber_weight. destruct (Rle_dec v c); [lra|]. split; [apply div_pos_nonneg; lra|].
    left. apply div_lt_1; lra.
  - destruct Hc as (H1 & H2 & H3). unfold hampel_weight. destruct (Rle_dec v c); [lra|]. destruct (Rle_dec v b).
    + split; [apply div_pos_nonneg; lra|]. left. apply div_lt_1; lra.
    + destruct (Rle_dec v r); [|lra]. pose proof (hampel_part c b r v ltac:(lra) H2 H3 ltac:(lra)). lra.
Qed.
Lemma div_le_div : forall a b c d, 0 < b -> 0 < d -> a * d <= c * b -> a / b <= c / d.
Proof.
  intros a b c d Hb Hd H. apply (Rmult_le_reg_r (b * d)); [nra|].
  replace (a / b * (b * d)) with (a * d) by (field; lra). replace (c / d * (b * d)) with (c * b) by (field; lra). exact H.
Qed.
Lemma textbook_antitone : forall f c b r v v', cutoffs_ok f c b r -> 0 <= v <= v' ->
  textbook f c b r v' <= textbook f c b r v.
Proof.
  intros f c b r v v' Hc Hv. pose proof (textbook_range f c b r v Hc ltac:(lra)) as R1. pose proof (textbook_range f c b r v' Hc ltac:(lra)) as R2.
  destruct f; cbn [textbook cutoffs_ok] in *.
  - unfold fair_weight. rewrite !Rabs_right by lra.
    assert (v / (2 * c) <= v' / (2 * c)) by (apply Rmult_le_compat_r; [left; apply Rinv_0_lt_compat; lra|lra]).
    assert (0 <= v / (2 * c)) by (apply div_pos_nonneg; lra).
    set (a := v / (2 * c)) in *. set (a' := v' / (2 * c)) in *. apply div_le_div; nra.
  - unfold huber_weight in *. destruct (Rle_dec v c); [lra|]. destruct (Rle_dec v' c); [lra|]. apply div_le_div; nra.
  - destruct Hc as (H1 & H2 & H3). unfold hampel_weight in *. destruct (Rle_dec v c); [lra|]. destruct (Rle_dec v' c); [lra|].
    destruct (Rle_dec v b).
    + destruct (Rle_dec v' b); [apply div_le_div; nra|]. destruct (Rle_dec v' r); [|lra].
      apply div_le_div; [|lra|]; [apply Rmult_lt_0_compat; lra|].
      (* c (r - v') v <= c ((r-b) v') *)
      assert (Hk : (r - v') * v <= (r - b) * v').
      { apply Rle_trans with ((r - b) * v); [apply Rmult_le_compat_r; lra|apply Rmult_le_compat_l; lra]. }
      rewrite Rmult_assoc. apply Rmult_le_compat_l; lra.
    + destruct (Rle_dec v' b); [lra|]. destruct (Rle_dec v r); [|destruct (Rle_dec v' r); lra].
      destruct (Rle_dec v' r); [|lra].
      apply div_le_div; try (apply Rmult_lt_0_compat; lra).
      assert (Hk : (r - v') * v <= (r - v) * v') by nra.
      replace (c * (r - v') * ((r - b) * v)) with (c * (r - b) * ((r - v') * v)) by ring.
      replace (c * (r - v) * ((r - b) * v')) with (c * (r - b) * ((r - v) * v')) by ring.
      apply Rmult_le_compat_l; [apply Rmult_le_pos; lra|exact Hk].
Qed.

Lemma C25_weights_l : forall f c b r x, cutoffs_ok f c b r -> nonneg x ->
  length (mweights f c b r x) = length x /\
  (forall i, (i < length x)%nat -> 0 <= nth i (mweights f c b r x) 0 <= 1) /\
  (forall i j, (i < length x)%nat -> (j < length x)%nat -> nth i x 0 <= nth j x 0 ->
     nth j (mweights f c b r x) 0 <= nth i (mweights f c b r x) 0) /\
  (forall i, (i < length x)%nat -> f <> MFair -> nth i x 0 <= c -> nth i (mweights f c b r x) 0 = 1) /\
  (forall i, (i < length x)%nat -> f = MHampel -> r < nth i x 0 -> nth i (mweights f c b r x) 0 = 0).
Proof.
  intros f c b r x Hc Hx. rewrite C26_textbook_l by auto.
  assert (Hn : forall i, (i < length x)%nat -> nth i (map (textbook f c b r) x) 0 = textbook f c b r (nth i x 0)).
  { intros i Hi. apply nth_map_lt; auto. }
  assert (H0 : forall i, (i < length x)%nat -> 0 <= nth i x 0).
  { intros i Hi. unfold nonneg in Hx. rewrite Forall_forall in Hx. apply Hx, nth_In, Hi. }
  split; [apply map_length|]. split; [|split; [|split]].
  - intros i Hi. rewrite Hn by auto. apply textbook_range; auto.
  - intros i j Hi Hj Hij. rewrite !Hn by auto. apply textbook_antitone; auto.
  - intros i Hi Hf Hle. rewrite Hn by auto. destruct f; [congruence| |]; cbn [textbook]; unfold huber_weight, hampel_weight;
      (destruct (Rle_dec (nth i x 0) c); [reflexivity|lra]).
  - intros i Hi -> Hlt. rewrite Hn by auto. cbn [textbook cutoffs_ok] in *. unfold hampel_weight.
    destruct (Rle_dec (nth i x 0) c); [lra|]. destruct (Rle_dec (nth i x 0) b); [lra|]. destruct (Rle_dec (nth i x 0) r); [lra|reflexivity].
Qed.

(** cut-offs below 1 *)
Lemma C26_small_l : forall f c b r x i, (f = MHuber \/ f = MHampel) -> 0 < c < 1 -> 1 <= b < r -> (i < length x)%nat ->
  nth i x 0 <= c -> nth i (mweights f c b r x) 0 = c.
Proof.
  intros f c b r x i Hf Hc Hb Hi Hx. rewrite mweights_map, (nth_map_lt _ _ _ 0) by auto. set (v := nth i x 0) in *.
  destruct Hf as [->| ->]; cbn [mweight1].
  - unfold huber1. replace (Rleb v c) with true by (symmetry; apply Rleb_true; auto).
    replace (Rltb c 1) with true by (symmetry; apply Rltb_true; lra). rewrite Rabs_R1. field.
  - unfold hampel1. replace (Rleb v c) with true by (symmetry; apply Rleb_true; auto).
    replace (Rltb c 1) with true by (symmetry; apply Rltb_true; lra).
    replace (Rleb 1 b) with true by (symmetry; apply Rleb_true; lra). cbn [andb]. rewrite Rabs_R1.
    replace (c / 1) with c by field.
    replace (Rltb b c) with false by (symmetry; apply Rltb_false; lra). cbn [andb].
    replace (Rltb r c) with false by (symmetry; apply Rltb_false; lra). reflexivity.
Qed.
(** negative arguments *)
Lemma C26_negative_l : forall f c b r x i, (f = MHuber \/ f = MHampel) -> cutoffs_ok f c b r -> (i < length x)%nat ->
  nth i x 0 <= 0 -> nth i (mweights f c b r x) 0 = 1.
Proof.
  intros f c b r x i Hf Hc Hi Hx. rewrite mweights_map, (nth_map_lt _ _ _ 0) by auto. set (v := nth i x 0) in *.
  destruct Hf as [->| ->]; cbn [mweight1 cutoffs_ok] in *.
  - unfold huber1. replace (Rleb v c) with true by (symmetry; apply Rleb_true; lra).
    replace (Rltb c 1) with false by (symmetry; apply Rltb_false; lra). reflexivity.
  - unfold hampel1. replace (Rleb v c) with true by (symmetry; apply Rleb_true; lra).
    replace (Rltb c 1) with false by (symmetry; apply Rltb_false; lra). cbn [andb].
    replace (Rltb b 1) with false by (symmetry; apply Rltb_false; lra). cbn [andb].
    replace (Rltb r 1) with false by (symmetry; apply Rltb_false; lra). reflexivity.
Qed.
(** negative cut-offs (probp1 < 1/2 gives one): negative weights *)
Lemma C25_negative_cutoff_l : forall c x i, c < 0 -> (i < length x)%nat -> 0 < nth i x 0 ->
  nth i (mweights MHuber c 0 0 x) 0 < 0.
Proof.
  intros c x i Hc Hi Hx. rewrite mweights_map, (nth_map_lt _ _ _ 0) by auto. set (v := nth i x 0) in *. cbn [mweight1].
  unfold huber1. replace (Rleb v c) with false by (symmetry; apply Rleb_false; lra).
  replace (Rltb c v) with true by (symmetry; apply Rltb_true; lra). rewrite Rabs_right by lra.
  apply (Rmult_lt_reg_r v); auto. unfold Rdiv. rewrite Rmult_assoc, Rinv_l by lra. lra.
Qed.

Lemma C27_pointwise_l : forall f c b r (x x' : list R) i i', (i < length x)%nat -> (i' < length x')%nat -> nth i x 0 = nth i' x' 0 ->
  nth i (mweights f c b r x) 0 = nth i' (mweights f c b r x') 0.
Proof.
  intros f c b r x x' i i' Hi Hi' E. rewrite !mweights_map, !(nth_map_lt _ _ _ 0) by auto. rewrite E. reflexivity.
Qed.

(* ------------------------------------------------------------------ *)
(** broken stick *)
Lemma triu_row : forall n i w, (i < n)%nat -> length w = n ->
  dot (nth i (triu_ones n) []) w = sumn n (fun j => if (i <=? j)%nat then nth j w 0 else 0).
Proof.
  intros n i w Hi Hw. unfold triu_ones. rewrite (nth_map_lt _ _ _ 0%nat) by (rewrite seq_length; auto).
  rewrite seq_nth by auto. rewrite (dot_sumn _ _ n); [|rewrite map_length, seq_length; auto|auto].
  apply sumn_ext. intros j Hj. rewrite (nth_map_lt _ _ _ 0%nat) by (rewrite seq_length; auto). rewrite seq_nth by auto.
  cbn [Nat.add]. rnum. destruct (i <=? j)%nat; ring.
Qed.
Lemma brokenstick_length : forall n, length (brokenstick (A:=R) n) = n.
Proof. intros n. unfold brokenstick, matvec, triu_ones. rewrite !map_length, seq_length. reflexivity. Qed.
Lemma brokenstick_nth : forall n i, (i < n)%nat ->
  nth i (brokenstick (A:=R) n) 0 = sumn n (fun j => if (i <=? j)%nat then 1 / INR (S j) else 0) / INR n.
Proof.
  intros n i Hi. unfold brokenstick.
  rewrite (nth_map_lt _ _ _ 0) by (rewrite matvec_length; unfold triu_ones; rewrite map_length, seq_length; auto).
  rewrite nth_matvec by (unfold triu_ones; rewrite map_length, seq_length; auto).
  rewrite triu_row by (rewrite ?map_length, ?seq_length; auto). rewrite nnat_R. rnum. f_equal.
  apply sumn_ext. intros j Hj. destruct (i <=? j)%nat; [|reflexivity].
  rewrite (nth_map_lt _ _ _ 0%nat) by (rewrite seq_length; auto). rewrite seq_nth by auto. rewrite nnat_R. reflexivity.
Qed.
Lemma sumn_count : forall n j, (j < n)%nat -> sumn n (fun i => if (i <=? j)%nat then 1 else 0) = INR (S j).
Proof.
  intros n j Hj. induction n as [|n IH]; [lia|]. rewrite sumn_S. destruct (Nat.eq_dec j n) as [->|Hne].
  - rewrite (sumn_ext n _ (fun _ => 1)).
    + rewrite sumn_const, Nat.leb_refl, S_INR. ring.
    + intros i Hi. destruct (Nat.leb_spec i n); [reflexivity|lia].
  - rewrite IH by lia. destruct (Nat.leb_spec n j); [lia|]. ring.
Qed.
Lemma brokenstick_sum : forall n, (1 <= n)%nat -> vsum (brokenstick (A:=R) n) = 1.
Proof.
  intros n Hn. rewrite vsum_sumn, brokenstick_length.
  rewrite (sumn_ext n _ (fun i => sumn n (fun j => if (i <=? j)%nat then 1 / INR (S j) else 0) * / INR n)).
  2:{ intros i Hi. rewrite brokenstick_nth by auto. reflexivity. }
  rewrite sumn_scal_r, sumn_exchange.
  rewrite (sumn_ext n _ (fun _ => 1)).
  - rewrite sumn_const, Rmult_1_r. apply Rinv_r. apply not_0_INR. lia.
  - intros j Hj. rewrite (sumn_ext n _ (fun i => (if (i <=? j)%nat then 1 else 0) * (1 / INR (S j)))).
    + rewrite sumn_scal_r, sumn_count by auto. field. apply not_0_INR. lia.
    + intros i Hi. destruct (i <=? j)%nat; ring.
Qed.
Lemma sumn_lt_at : forall n f g k, (k < n)%nat -> (forall i, (i < n)%nat -> f i <= g i) -> f k < g k -> sumn n f < sumn n g.
Proof.
  intros n f g k Hk Hle Hlt. induction n as [|n IH]; [lia|]. rewrite !sumn_S. destruct (Nat.eq_dec k n) as [->|Hne].
  - assert (sumn n f <= sumn n g) by (apply sumn_le; intros; apply Hle; lia). lra.
  - assert (sumn n f < sumn n g) by (apply IH; [lia|intros; apply Hle; lia]). specialize (Hle n ltac:(lia)). lra.
Qed.
Lemma sumn_pos_at : forall n g k, (k < n)%nat -> (forall i, (i < n)%nat -> 0 <= g i) -> 0 < g k -> 0 < sumn n g.
Proof.
  intros n g k Hk Hle Hlt. pose proof (sumn_lt_at n (fun _ => 0) g k Hk Hle Hlt) as H. rewrite sumn_zero in H; auto.
Qed.
Lemma C28_l : forall n, (1 <= n)%nat ->
  length (brokenstick (A:=R) n) = n /\ sum_of (brokenstick n) = 1 /\
  (forall i, (i < n)%nat -> 0 < nth i (brokenstick (A:=R) n) 0) /\
  (forall i j, (i < j)%nat -> (j < n)%nat -> nth j (brokenstick (A:=R) n) 0 < nth i (brokenstick (A:=R) n) 0) /\
  (forall i, (i < n)%nat -> nth i (brokenstick (A:=R) n) 0 = sum_of (map (fun k => 1 / INR k) (seq (S i) (n - i))) / INR n).
Proof.
  intros n Hn. assert (HnR : 0 < INR n) by (apply lt_0_INR; lia).
  assert (Hinv : forall j, 0 < 1 / INR (S j)) by (intros j; apply Rdiv_lt_0_compat; [lra|apply lt_0_INR; lia]).
  split; [apply brokenstick_length|]. split; [change sum_of with (@vsum R Num_R); apply brokenstick_sum; auto|].
  split; [|split].
  - intros i Hi. rewrite brokenstick_nth by auto. apply Rdiv_lt_0_compat; auto.
    apply (sumn_pos_at n _ i Hi).
    + intros j Hj. pose proof (Hinv j) as Hj1. cbv beta. destruct (i <=? j)%nat; [left; exact Hj1|apply Rle_refl].
    + rewrite Nat.leb_refl. apply Hinv.
  - intros i j Hij Hj. rewrite !brokenstick_nth by lia. apply Rmult_lt_compat_r; [apply Rinv_0_lt_compat; auto|].
    apply (sumn_lt_at n _ _ i); [lia| |].
    + intros k Hk. pose proof (Hinv k) as Hk1. destruct (Nat.leb_spec j k), (Nat.leb_spec i k); try lia; try apply Rle_refl. left; exact Hk1.
    + rewrite Nat.leb_refl. destruct (Nat.leb_spec j i); [lia|]. apply Hinv.
  - intros i Hi. rewrite brokenstick_nth by auto. f_equal. change sum_of with (@vsum R Num_R).
    clear Hn HnR. induction n as [|n IH]; [lia|]. rewrite sumn_S. destruct (Nat.eq_dec i n) as [->|Hne].
    + replace (S n - n)%nat with 1%nat by lia. rewrite Nat.leb_refl. rewrite sumn_zero.
      * cbn [seq map]. rewrite vsum_cons, vsum_nil. ring.
      * intros k Hk. destruct (Nat.leb_spec n k); [lia|reflexivity].
    + rewrite IH by lia. replace (S n - i)%nat with (S (n - i)) by lia. rewrite seq_S, map_app, vsum_app. cbn [map].
      rewrite vsum_cons, vsum_nil. destruct (Nat.leb_spec i n); [|lia]. replace (S i + (n - i))%nat with (S n) by lia. ring.
Qed.

(* ------------------------------------------------------------------ *)
(** where_ *)
Lemma where_from_in : forall {B} (f : B -> bool) l k i, In i (where_from f k l) <->
  exists j x, nth_error l j = Some x /\ f x = true /\ i = (k + j)%nat.
Proof.
  intros B f l; induction l as [|x l IH]; intros k i; cbn [where_from].
  - split; [intros []|]. intros (j & x & E & _). destruct j; discriminate.
  - assert (Hshift : (exists j y, nth_error l j = Some y /\ f y = true /\ i = (S k + j)%nat) <->
                     (exists j y, nth_error (x :: l) (S j) = Some y /\ f y = true /\ i = (k + S j)%nat)).
    { split; intros (j & y & E & F & ->); exists j, y; cbn in *; repeat split; auto; lia. }
    destruct (f x) eqn:Fx; cbn [In]; rewrite IH, Hshift; split.
    + intros [<-|(j & y & E & F & ->)]; [exists O, x; cbn; auto|]. exists (S j), y; auto.
    + intros (j & y & E & F & ->). destruct j; [left; lia|right; exists j, y; auto].
    + intros (j & y & E & F & ->). exists (S j), y; auto.
    + intros (j & y & E & F & ->). destruct j; [cbn in E; congruence|exists j, y; auto].
Qed.
Lemma where_in : forall {B} (f : B -> bool) l i d, In i (where_ f l) <-> (i < length l)%nat /\ f (nth i l d) = true.
Proof.
  intros B f l i d. unfold where_. rewrite where_from_in. split.
  - intros (j & x & E & F & ->). cbn [Nat.add]. assert (j < length l)%nat by (apply nth_error_Some; congruence).
    split; auto. rewrite (nth_error_nth l j d E). auto.
  - intros [Hi F]. exists i, (nth i l d). split; [apply nth_error_nth'; auto|]. auto.
Qed.

Lemma C29_l : forall spc : list R, spc <> [] -> sum_of spc = 1 ->
  exists k, relcomp spc = Ok k /\ (1 <= k)%nat /\ (k <= Nat.max (length spc - 1) 1)%nat.
Proof.
  intros spc Hne Hs. set (n := length spc). assert (Hn : (1 <= n)%nat) by (unfold n; destruct spc; [congruence|cbn; lia]).
  set (d := vsub spc (brokenstick n)).
  assert (Hld : length d = n) by (unfold d; rewrite vsub_length; rewrite ?brokenstick_length; auto).
  assert (Hsd : vsum d = 0).
  { rewrite vsum_sumn, Hld. rewrite (sumn_ext n _ (fun i => nth i spc 0 - nth i (brokenstick (A:=R) n) 0)).
    - rewrite sumn_minus. pose proof (vsum_sumn spc) as E1. pose proof (vsum_sumn (brokenstick (A:=R) n)) as E2.
      rewrite brokenstick_length in E2. fold n in E1. rewrite <- E1, <- E2, brokenstick_sum by auto.
      change (vsum spc) with (sum_of spc). rewrite Hs. rnum. ring.
    - intros i Hi. unfold d. apply nth_vsub; rewrite ?brokenstick_length; auto. }
  unfold relcomp. fold n. fold d.
  destruct (where_ (fun v => nleb v n0) d) as [|j js] eqn:E.
  - exfalso. assert (Hpos : forall i, (i < n)%nat -> 0 < nth i d 0).
    { intros i Hi. destruct (Rle_lt_dec (nth i d 0) 0) as [Hle|]; auto. exfalso.
      assert (Hin : In i (where_ (fun v => nleb v n0) d)).
      { apply (where_in _ _ _ 0). split; [lia|]. rnum. apply Rleb_true; auto. }
      rewrite E in Hin. destruct Hin. }
    assert (0 < vsum d); [|lra]. rewrite vsum_sumn, Hld. 
    apply (sumn_pos_at n _ 0%nat Hn); [intros i Hi; left; apply Hpos; auto|apply Hpos; auto].
  - exists (Nat.max j 1). split; auto. assert (Hj : In j (where_ (fun v => nleb v n0) d)) by (rewrite E; left; auto).
    apply (where_in _ _ _ 0) in Hj as [Hj _]. split; lia.
Qed.

(* ------------------------------------------------------------------ *)
(** robust loss *)
Lemma fair1_even : forall c v, fair1 c (- v) = fair1 c v.
Proof. intros c v. unfold fair1. replace (- v / (c * 2)) with (- (v / (c * 2))) by (unfold Rdiv; ring). rewrite Rabs_Ropp. reflexivity. Qed.
Lemma C84_fair_l : forall c b r (y yp : list R), length y = length yp ->
  robust_loss MFair c b r (map Ropp y) (map Ropp yp) = robust_loss MFair c b r y yp.
Proof.
  intros c b r y yp Hl. unfold robust_loss, weighted_mse. rewrite !mweights_map.
  assert (E : vsub (map Ropp y) (map Ropp yp) = map Ropp (vsub y yp)).
  { change (map2 Rminus (map Ropp y) (map Ropp yp) = map Ropp (map2 Rminus y yp)). clear. revert yp.
    induction y as [|a y IH]; intros [|b yp]; cbn [map map2]; auto. rewrite IH. f_equal. ring. }
  rewrite E, !map_map.
  rewrite (map_ext (fun x => mweight1 MFair c b r (- x)) (mweight1 MFair c b r)) by (intros; apply fair1_even).
  rewrite (map_ext (fun x => nsqr (- x)) nsqr) by (intros; unfold nsqr; rnum; ring). reflexivity.
Qed.

Lemma C84_onesided_l : forall f c b r (y yp : list R), (f = MHuber \/ f = MHampel) -> cutoffs_ok f c b r ->
  let e := vdiff y yp in
  let w := map (fun x => if Rle_dec x 0 then 1 else textbook f c b r x) e in
  robust_loss f c b r y yp = sum_of (map (fun i => nth i e 0 * nth i e 0 * nth i w 0) (seq 0 (length e))) / sum_of w.
Proof.
  intros f c b r y yp Hf Hc e w. unfold robust_loss, weighted_mse. rewrite <- vdiff_vsub. fold e.
  assert (Ew : mweights f c b r e = w).
  { unfold w. apply (list_ext _ _ 0).
    - rewrite mweights_map, !map_length. reflexivity.
    - intros i Hi. assert (Hi' : (i < length e)%nat) by (rewrite mweights_map, map_length in Hi; auto).
      rewrite (nth_map_lt _ _ _ 0 0) by auto. destruct (Rle_dec (nth i e 0) 0) as [H|H].
      + apply C26_negative_l; auto.
      + rewrite mweights_map, (nth_map_lt _ _ _ 0 0) by auto. apply mweight1_textbook; auto. lra. }
  rewrite Ew. change sum_of with (@vsum R Num_R). rnum. f_equal. rewrite vsum_sumn. unfold sumn.
  assert (Hw : length w = length e) by (unfold w; apply map_length).
  rewrite map2_length_eq by (rewrite map_length; auto). rewrite map_length.
  f_equal. apply map_ext_in. intros i Hi. apply in_seq in Hi.
  rewrite (nth_map2 _ _ _ _ 0 0) by (rewrite ?map_length; lia). rewrite (nth_map_lt _ _ _ 0 0) by lia. reflexivity.
Qed.
