(** C188-C190: weights, medians and standardisation in floating-point
    arithmetic.  The model functions are evaluated in the arithmetic
    [Num_rnd rnd], which rounds the result of every operation. *)
From Coq Require Import Reals List Arith ZArith Bool Lia Lra Permutation Sorted.
Import ListNotations.
From Verif Require Import Num Err Vec VecR OrdR L_Mat S_Stats S_Weights S_Order M_Utils M_Preproc M_Robcent M_Msupport M_Float S_Float L_Order L_Scaling L_Float.
Open Scope R_scope.

(** the doubles of numpy are an instance of the roundings considered *)
Example C188_doubles : rounding binary64.
Proof. exact binary64_rounding. Qed.
Print Assumptions C188_doubles.

(* ------------------------------------------------------------------ *)
(** C188 *)

Theorem C188_weights : forall rnd f c b r x, rounding rnd -> cutoffs_ok f c b r -> rnd c = c -> rnd b = b -> rnd r = r -> nonneg x ->
  let w := @mweights R (Num_rnd rnd) f c b r x in
  length w = length x /\
  (forall i, (i < length x)%nat -> 0 <= nth i w 0 <= 1) /\
  (forall i, (i < length x)%nat -> f <> MFair -> nth i x 0 <= c -> nth i w 0 = 1) /\
  (forall i, (i < length x)%nat -> f = MHampel -> r <= nth i x 0 -> nth i w 0 = 0) /\
  (forall i j, (i < length x)%nat -> (j < length x)%nat -> nth i x 0 <= nth j x 0 -> f <> MHampel \/ ~ (c < nth i x 0 <= b /\ b < nth j x 0 < r) -> nth j w 0 <= nth i w 0).
Proof.
  intros rnd f c b r x HR HC Hc Hb Hr Hx w. destruct (weights_l rnd f c b r x HR HC Hc Hb Hr Hx) as (A & B & C & D & E & F).
  split; [exact A|]. split; [exact B|]. split; [exact C|]. split; [exact D|]. intros i j Hi Hj Hij H. destruct f; [apply F; auto; discriminate|apply F; auto; discriminate|]. destruct H as [H|H]; [congruence|]. apply E; auto.
Qed.
Print Assumptions C188_weights.
(** the excluded pairs are those with one distance up to the second cut-off and
    the other beyond it: there a larger distance can get a larger weight *)
Theorem C188_monotone_refuted : exists c b r x, cutoffs_ok MHampel c b r /\ binary64 c = c /\ binary64 b = b /\ binary64 r = r /\ Forall (fun v => 0 <= v /\ binary64 v = v) x /\
  nth 0 x 0 < nth 1 x 0 /\ nth 0 (@mweights R (Num_rnd binary64) MHampel c b r x) 0 < nth 1 (@mweights R (Num_rnd binary64) MHampel c b r x) 0.
Proof.
  assert (Eb : binary64 hb = hb) by (apply (exact64 8915420504263087 51); lia). assert (Er : binary64 hr = hr) by (apply (exact64 6992271598637416 49); lia).
  assert (Ec : binary64 hc = hc) by (apply (exact64 7908185495573586 52); lia). assert (Ev : binary64 hv = hv) by (apply (exact64 8915420504263088 51); lia).
  exists hc, hb, hr, [hb; hv]. split; [cbn; unfold hc, hb, hr; lra|]. do 3 (split; [assumption|]). split; [constructor; [split; [unfold hb; lra|exact Eb]|constructor; [split; [unfold hv; lra|exact Ev]|constructor]]|].
  split; [cbn [nth]; unfold hb, hv; lra|]. rewrite !nth_w1 by (cbn; lia). exact hampel_jump.
Qed.
Print Assumptions C188_monotone_refuted.
Example C188_case : cutoffs_ok MHampel 2 3 4 /\ binary64 2 = 2 /\ binary64 3 = 3 /\ binary64 4 = 4 /\ nonneg [1; 5; 7/2].
Proof. split; [cbn; lra|]. do 3 (split; [apply int64; lia|]). repeat constructor; lra. Qed.

(* ------------------------------------------------------------------ *)
(** C189 *)

(** for every rounding function whatsoever *)
Theorem C189_order : forall (rnd : R -> R) env c s t n p X o, (c = CMedian \/ c = CNone) -> (s = SMad \/ s = SNone) -> is_matrix n p X -> (2 <= n)%nat -> case_order n o ->
  let F := fun Y => @sc_fit_transform R (Num_rnd rnd) env (@new_scaler R c s t) (A2 Y) in
  a_center (fst (F (reorder o X))) = a_center (fst (F X)) /\ a_scale (fst (F (reorder o X))) = a_scale (fst (F X)) /\
  snd (F (reorder o X)) = match snd (F X) with Ok Z => Ok (reorder o Z) | Err e => Err e end.
Proof. exact order_l. Qed.
Print Assumptions C189_order.

(** the median lies between the middle values; for an odd number of cases it is
    one of the data *)
Theorem C189_middle : forall rnd env n p X j, rounding rnd -> is_matrix n p X -> (2 <= n)%nat -> (j < p)%nat -> Forall (fun x => rnd x = x) (column j X) ->
  exists m s, a_center (fst (@sc_fit_transform R (Num_rnd rnd) env (@new_scaler R CMedian SMad 0) (A2 X))) = Some m /\ Permutation (column j X) s /\ StronglySorted Rle s /\
    nth ((n - 1) / 2) s 0 <= nth j m 0 <= nth (n / 2) s 0.
Proof.
  intros rnd env n p X j HR W Hn Hj HF. destruct (fit_cells rnd HR env n p X W Hn ltac:(lia)) as (st & Z & E & _ & Em & _ & _). rewrite E. cbn [fst].
  exists (@median R (Num_rnd rnd) X), (sort (column j X)). split; [exact Em|]. split; [apply sort_perm|]. split; [apply sort_sorted|].
  rewrite (median_N_nth rnd n p) by (auto; lia). change (@col R Num_R j X) with (column j X).
  assert (L : length (column j X) = n) by (unfold column; rewrite map_length; apply W). rewrite <- L. apply medF_mid; auto. intros E0. rewrite E0 in L. cbn in L. lia.
Qed.
Print Assumptions C189_middle.

(** the mean of the same numbers in another order is another number *)
Theorem C189_mean_refuted : exists X o m m', is_matrix 4 1 X /\ case_order 4 o /\ Forall (Forall (fun x => binary64 x = x)) X /\ m <> m' /\
  forall env, a_center (fst (@sc_fit_transform R (Num_rnd binary64) env (@new_scaler R CMean SNone 0) (A2 X))) = Some [m] /\
    a_center (fst (@sc_fit_transform R (Num_rnd binary64) env (@new_scaler R CMean SNone 0) (A2 (reorder o X)))) = Some [m'].
Proof.
  pose proof binary64_rounding as HR. set (B := 9007199254740992).
  assert (EB : binary64 B = B) by (apply (b64_exact _ 4503599627370496 1); [lia|lia|cbn; unfold B; lra]).
  assert (E0 : binary64 (0 + 0) = 0) by (rewrite Rplus_0_r; apply (rnd_0 _ HR)). assert (E1 : binary64 (1 + 0) = 1) by (rewrite Rplus_0_r; apply (rnd_1 _ HR)).
  assert (E2 : binary64 (1 + 1) = 2) by (replace (1 + 1) with 2 by ring; apply (rnd_2 _ HR)).
  assert (E3 : binary64 (B + 2) = 9007199254740994) by (replace (B + 2) with 9007199254740994 by (unfold B; lra); apply (b64_exact _ 4503599627370497 1); [lia|lia|cbn; lra]).
  assert (E4 : binary64 (B + 0) = B) by (rewrite Rplus_0_r; exact EB).
  assert (E5 : binary64 (1 + B) = B).
  { rewrite (b64_tie _ 4503599627370496 4503599627370496 1); [cbn; unfold B; lra|lia|lia|lia|cbn; unfold B; lra|reflexivity]. }
  assert (Q : binary64 (4 / 1) = 4) by (replace (4 / 1) with 4 by field; apply int64; lia).
  assert (M1 : binary64 (9007199254740994 / 4) = 4503599627370497 / 2) by (replace (9007199254740994 / 4) with (4503599627370497 / 2) by lra; apply (exact64 4503599627370497 1); lia).
  assert (M2 : binary64 (B / 4) = 2251799813685248) by (replace (B / 4) with 2251799813685248 by (unfold B; lra); apply int64; lia).
  assert (ET : @check_trimming R (Num_rnd binary64) 0 = Ok tt).
  { unfold check_trimming, raise_if. cbn. assert (H : 0 <= binary64 (99 / 100)) by (apply rnd_nonneg; [exact HR|lra]). rewrite (proj2 (Rltb_false (binary64 (99 / 100)) 0)) by lra. rewrite (proj2 (Rltb_false 0 0)) by lra. reflexivity. }
  assert (FC : forall env a b c d, a_center (fst (@sc_fit_transform R (Num_rnd binary64) env (@new_scaler R CMean SNone 0) (A2 [[a]; [b]; [c]; [d]]))) = Some [@vmean R (Num_rnd binary64) [a; b; c; d]]).
  { intros env a b c d. unfold sc_fit_transform, sc_fit. cbn [sc_trimming sc_center sc_scale new_scaler]. rewrite ET. cbn [is_bad location scale_est].
    change (check_input (A2 [[a]; [b]; [c]; [d]])) with [[a]; [b]; [c]; [d]]. unfold mean. change (@neqb R (Num_rnd binary64) 0 (@n0 R (Num_rnd binary64))) with (Reqb 0 0). rewrite Reqb_refl.
    change (@manynan R (Num_rnd binary64) [[a]; [b]; [c]; [d]]) with (@manynan R Num_R [[a]; [b]; [c]; [d]]). rewrite manynan_R. reflexivity. }
  exists [[B]; [1]; [1]; [0]], [1; 2; 0; 3]%nat, (4503599627370497 / 2), 2251799813685248.
  split; [split; [reflexivity|repeat constructor]|]. split; [apply NoDup_Permutation; [apply seq_NoDup|repeat constructor; cbn; intuition lia|]; intros i; rewrite in_seq; cbn; lia|].
  split; [repeat constructor; [exact EB|apply (rnd_1 _ HR)|apply (rnd_1 _ HR)|apply (rnd_0 _ HR)]|]. split; [intros E; lra|].
  intros env. cbn [reorder flat_map nth_error app]. rewrite !FC. unfold vmean, nnat, nZ. cbn. rewrite E0, E1, E2, E3, E4, E5, E5, Q, M1, M2. split; reflexivity.
Qed.
Print Assumptions C189_mean_refuted.
Example C189_case : is_matrix 3 1 [[tenth]; [1]; [/2]] /\ Forall (fun x => binary64 x = x) (column 0 [[tenth]; [1]; [/2]]) /\ case_order 3 [2; 0; 1]%nat.
Proof.
  split; [split; [reflexivity|repeat constructor]|]. split; [repeat constructor; [apply (exact64 7205759403792794 56); lia|apply (rnd_1 _ binary64_rounding)|apply (rnd_half _ binary64_rounding)]|].
  apply NoDup_Permutation; [apply seq_NoDup|repeat constructor; cbn; intuition lia|]. intros i. rewrite in_seq. cbn. lia.
Qed.

(* ------------------------------------------------------------------ *)
(** C190 *)

Theorem C190_constant : forall rnd env n p X j a, rounding rnd -> is_matrix n p X -> (2 <= n)%nat -> (j < p)%nat -> (forall i, (i < n)%nat -> cell X i j = a) -> rnd a = a ->
  exists Z, snd (@sc_fit_transform R (Num_rnd rnd) env (@new_scaler R CMedian SMad 0) (A2 X)) = Ok Z /\ is_matrix n p Z /\ forall i, (i < n)%nat -> cell Z i j = 0.
Proof.
  intros rnd env n p X j a HR W Hn Hj Ha Hr. destruct (fit_cells rnd HR env n p X W Hn ltac:(lia)) as (st & Z & E & WZ & _ & _ & HC). rewrite E. exists Z. split; [reflexivity|]. split; [exact WZ|].
  intros i Hi. rewrite HC by assumption. assert (L : length (column j X) = n) by (unfold column; rewrite map_length; apply W). assert (NE : column j X <> []) by (intros E0; rewrite E0 in L; cbn in L; lia).
  assert (HF : Forall (fun x => x = a) (column j X)).
  { apply Forall_forall. intros x Hx. apply (In_nth _ _ 0) in Hx as (k & Hk & <-). rewrite L in Hk. rewrite <- (Ha k Hk). unfold column, cell. rewrite (nth_indep _ 0 (nth j [] 0)) by (rewrite map_length; destruct W as [-> _]; exact Hk). apply (map_nth (fun r => nth j r 0)). }
  rewrite (medF_const rnd HR _ a NE Hr HF), (madF_const rnd HR _ a NE Hr HF), Ha by exact Hi. replace (a - a) with 0 by ring. rewrite (rnd_0 _ HR). unfold Rdiv. rewrite Rmult_0_l. apply (rnd_0 _ HR).
Qed.
Print Assumptions C190_constant.

(** standardising never swaps two values, and equal values stay equal *)
Theorem C190_monotone : forall rnd env n p X j, rounding rnd -> is_matrix n p X -> (2 <= n)%nat -> (j < p)%nat ->
  exists Z, snd (@sc_fit_transform R (Num_rnd rnd) env (@new_scaler R CMedian SMad 0) (A2 X)) = Ok Z /\
    forall i k, (i < n)%nat -> (k < n)%nat -> cell X i j <= cell X k j -> cell Z i j <= cell Z k j.
Proof.
  intros rnd env n p X j HR W Hn Hj. destruct (fit_cells rnd HR env n p X W Hn ltac:(lia)) as (st & Z & E & WZ & _ & _ & HC). rewrite E. exists Z. split; [reflexivity|].
  intros i k Hi Hk Hik. rewrite !HC by assumption. assert (L : length (column j X) = n) by (unfold column; rewrite map_length; apply W). assert (NE : column j X <> []) by (intros E0; rewrite E0 in L; cbn in L; lia).
  pose proof (hz_pos _ (madF_nonneg rnd HR _ NE)) as HP. apply (rnd_mono _ HR). apply Rmult_le_compat_r; [apply Rlt_le, Rinv_0_lt_compat, HP|]. apply (rnd_mono _ HR). lra.
Qed.
Print Assumptions C190_monotone.

(** with mean and standard deviation a constant column becomes -1 *)
Theorem C190_mean_refuted : forall env,
  let a := binary64 (1 / 10) in
  let F := @sc_fit_transform R (Num_rnd binary64) env (@new_scaler R CMean SStd 0) (A2 [[a]; [a]; [a]]) in
  snd F = Ok [[-1]; [-1]; [-1]] /\ exists m, a_center (fst F) = Some [m] /\ a < m.
Proof.
  intros env a F. subst F a. rewrite tenth_is, tenth_fit. cbn [fst snd a_center]. split; [reflexivity|]. exists (7205759403792795 / 72057594037927936). split; [reflexivity|]. unfold tenth. lra.
Qed.
Print Assumptions C190_mean_refuted.
Example C190_case : is_matrix 3 1 [[tenth]; [tenth]; [tenth]] /\ (forall i, (i < 3)%nat -> cell [[tenth]; [tenth]; [tenth]] i 0 = tenth) /\ binary64 tenth = tenth.
Proof.
  split; [split; [reflexivity|repeat constructor]|]. split; [|apply (exact64 7205759403792794 56); lia]. intros i Hi. destruct i as [|[|[|i]]]; try reflexivity. lia.
Qed.
