(** More components never fit the training data worse *)
From Coq Require Import String Reals List Lra Lia Arith ZArith Bool.
Import ListNotations. Import List.
From Verif Require Import Num Err Vec VecR L_Mat L_Lin L_Deflate S_Stats S_Regress L_Stats M_Utils M_Preproc M_Robcent L_Scaling M_Dicomo S_Dicomo L_Dicomo L_Dicomo2 M_Ipopt M_Plot M_Snipls L_Snipls L_Snipls2 L_Snipls3
  M_Ppdire M_PpWorld S_Ppdire S_Ppdire2 S_Sudire L_Pp L_Pp2 L_Pp3 L_Pp4 L_Pp5 L_Pp6 L_Pp8 S_Pca L_Pca2 L_Pls L_Pls2 L_Nested.
Open Scope R_scope.

Lemma inner_zeros_l : forall (r z : list R) m, (length z <= length r)%nat -> inner r (z ++ repeat 0 m) = inner (firstn (length z) r) z.
Proof.
  intros r. induction r as [|x r IH]; intros z m Hl.
  - destruct z; [|cbn in Hl; lia]. reflexivity.
  - destruct z as [|b z].
    + cbn [app firstn length]. assert (G : forall (l : list R) m, inner l (repeat 0 m) = 0).
      { induction l as [|u l IHl]; intros m'; [reflexivity|]. destruct m'; [reflexivity|]. unfold inner in *. cbn [repeat combine map fst snd].
        change (sum_of (u * 0 :: map (fun xy : R * R => fst xy * snd xy) (combine l (repeat 0 m')))) with (u * 0 + sum_of (map (fun xy : R * R => fst xy * snd xy) (combine l (repeat 0 m')))).
        rewrite IHl. ring. }
      rewrite G. reflexivity.
    + cbn in Hl. specialize (IH z m ltac:(lia)). unfold inner in *. cbn [app firstn length combine map fst snd].
      apply (f_equal (fun u => x * b + u)) in IH. exact IH.
Qed.
Lemma span_prefix : forall h k (W : list (list R)) b, (forall r, In r W -> length r = h) -> in_span (map (firstn k) W) b -> in_span W b.
Proof.
  intros h k W b HW (z & -> & Hz). exists (z ++ repeat 0 (h - Nat.min k h)). split.
  - unfold fitted_by. rewrite map_map. apply map_ext_in. intros r Hr.
    assert (L : length z = Nat.min k h) by (rewrite (Hz (firstn k r)) by (apply in_map; exact Hr); rewrite firstn_length, (HW r Hr); reflexivity).
    rewrite inner_zeros_l by (rewrite L, (HW r Hr); lia). f_equal. rewrite L. destruct (le_lt_dec k h).
    + rewrite Nat.min_l by lia. reflexivity.
    + rewrite Nat.min_r by lia. rewrite !firstn_all2 by (rewrite (HW r Hr); lia). reflexivity.
  - intros r Hr. assert (L : length z = Nat.min k h) by (rewrite (Hz (firstn k r)) by (apply in_map; exact Hr); rewrite firstn_length, (HW r Hr); reflexivity).
    rewrite app_length, repeat_length, L, (HW r Hr). lia.
Qed.

Lemma C177_better_l : forall env inv eta k k' c s n p X y f f' X0 y0, (k' <= k)%nat -> inverse_ok inv ->
  snipls_run env inv eta k c s n p X y f X0 y0 -> snipls_run env inv eta k' c s n p X y f' X0 y0 ->
  sqlen (vdiff y0 (fitted_by X0 (sn_coef_scaled f))) <= sqlen (vdiff y0 (fitted_by X0 (sn_coef_scaled f'))).
Proof.
  intros env inv eta k k' c s n p X y f f' X0 y0 Hk Hinv H H'.
  destruct (C38_l _ _ _ _ _ _ _ _ _ _ _ _ _ H Hinv) as (_ & _ & HB & _). apply HB.
  destruct (C38_l _ _ _ _ _ _ _ _ _ _ _ _ _ H' Hinv) as (HS & _).
  destruct H as (HX & Hn & Hp & Hy & Hf & HX0 & Hy0). destruct H' as (_ & _ & _ & _ & Hf' & _ & _).
  destruct (C177_snipls_l env inv eta k k' c s X y f f' Hk Hf Hf') as (EW & _). rewrite EW in HS.
  destruct (fit_attrs env inv eta k c s n p X y f X0 y0 HX Hn Hp Hy Hf HX0 Hy0) as (_ & _ & _ & EW0 & _).
  apply (span_prefix (length (map (M_Snipls.c_w (A := R)) (snipls_loop false eta (vsum (map nansum (map (map nsqr) X0))) (nansum (map nsqr y0)) k X0 y0 []))) k') in HS; [exact HS|].
  intros r Hr. rewrite EW0 in Hr. unfold of_cols in Hr. apply in_map_iff in Hr as (j & <- & _). rewrite map_length. reflexivity.
Qed.

Lemma nonzero_prefix : forall (env : prep_env R) inv eta k k' c s X y (f f' : snipls_model R), (k' <= k)%nat -> snipls_fit env inv eta k c s X y = Ok f -> snipls_fit env inv eta k' c s X y = Ok f' ->
  nonzero_scores f -> nonzero_scores f'.
Proof.
  intros env inv eta k k' c s X y f f' Hk Hf Hf' Hz a Ha.
  destruct (C177_snipls_l env inv eta k k' c s X y f f' Hk Hf Hf') as (_ & _ & ET & EC & _). rewrite EC, firstn_length in Ha. rewrite ET.
  replace (column a (map (firstn k') (sn_T f))) with (column a (sn_T f)); [apply Hz; lia|].
  unfold column. rewrite map_map. apply map_ext. intros r. symmetry. apply nth_firstn_lt. lia.
Qed.

(** the residuals are the scaled ones in the units of y *)
Lemma resid_units : forall (env : pp_env R) inv eta k s n p X y f X0 y0, snipls_run (pe_prep env) inv eta k CMean s n p X y f X0 y0 -> plain_scale s -> inverse_ok inv -> nonzero_scores f ->
  (forall j, (j < p)%nat -> nth j (sn_xsca f) 0 <> 0) -> nth 0 (sn_ysca f) 0 <> 0 ->
  sqlen (sn_resid f) = nth 0 (sn_ysca f) 0 * nth 0 (sn_ysca f) 0 * sqlen (vdiff y0 (fitted_by X0 (sn_coef_scaled f))).
Proof.
  intros env inv eta k s n p X y f X0 y0 H Hps Hinv Hz Hsx Hsy.
  pose proof (sn_fitted_scores env inv eta k s n p X y f X0 y0 H Hinv Hz Hsx) as Hfs.
  destruct (C38_l _ _ _ _ _ _ _ _ _ _ _ _ _ H Hinv) as (_ & _ & _ & HR). specialize (HR Hz). rewrite HR.
  destruct (C35_l _ _ _ _ _ _ _ _ _ _ _ _ _ H) as (_ & Hlf & Hlr & Hfr & _ & _).
  pose proof (run_scaled _ _ _ _ _ _ _ _ _ _ _ _ _ H) as [HW0 Hl0].
  destruct H as (HX & Hn2 & Hp & Hy & Hf & HX0 & Hy0).
  destruct (fit_attrs (pe_prep env) inv eta k CMean s n p X y f X0 y0 HX Hn2 Hp Hy Hf HX0 Hy0) as (_ & _ & _ & _ & _ & _ & _ & _ & _ & _ & _ & _ & _ & _ & _ & Eyc).
  set (sy := nth 0 (sn_ysca f) 0) in *.
  assert (HWy : wf n 1 (as_column y)).
  { split; [unfold as_column; rewrite map_length; exact Hy|]. apply Forall_forall. intros r Hr. unfold as_column in Hr. apply in_map_iff in Hr as (v & <- & _). reflexivity. }
  assert (Hls : length (sn_ysca f) = 1%nat).
  { apply (scaled_lengths env CMean s 0 n 1 (as_column y) (sn_yloc f) (sn_ysca f) (as_column y0)) in Eyc; auto. tauto. }
  destruct (centred_cells env s n 1 (as_column y) (sn_yloc f) (sn_ysca f) (as_column y0) HWy Hn2 ltac:(lia) Hls Eyc) as (_ & Hc & Hs0).
  { intros j Hj. replace j with 0%nat by lia. exact Hsy. }
  assert (Hcy : forall i, (i < n)%nat -> nth i y 0 = nth 0 (sn_yloc f) 0 + sy * nth i y0 0).
  { intros i Hi. specialize (Hc i 0%nat Hi ltac:(lia)). unfold mget, as_column in Hc. rewrite !(nth_map_lt _ _ _ 0) in Hc by lia. exact Hc. }
  assert (Hmean : nth 0 (sn_yloc f) 0 = mean_of y).
  { assert (S0 : sumn n (fun i => nth i y0 0) = 0).
    { refine (eq_trans _ (Hs0 0%nat ltac:(lia))). apply sumn_ext. intros i Hi. unfold mget, as_column. rewrite (nth_map_lt _ _ _ 0) by lia. reflexivity. }
    assert (Sy : sum_of y = sumn n (fun i => nth i y 0)) by (change sum_of with (@vsum R Num_R); rewrite vsum_sumn, Hy; reflexivity).
    unfold mean_of. rewrite Sy, Hy, (sumn_ext n _ (fun i => nth 0 (sn_yloc f) 0 + sy * nth i y0 0)) by (intros; apply Hcy; auto).
    rewrite sumn_plus, sumn_const, sumn_scal, S0. assert (INR n <> 0) by (apply not_0_INR; lia). field. auto. }
  assert (Hlp : length (partial_residual y0 (sn_T f) (sn_C f) (length (sn_C f))) = n) by (unfold partial_residual; rewrite map_length, seq_length; exact Hl0).
  unfold sqlen. rewrite !inner_dot, !(dot_sumn _ _ n) by auto. rewrite <- sumn_scal. apply sumn_ext. intros i Hi.
  assert (E : nth i (sn_resid f) 0 = sy * nth i (partial_residual y0 (sn_T f) (sn_C f) (length (sn_C f))) 0).
  { unfold partial_residual. rewrite (nth_map_lt _ _ _ 0%nat) by (rewrite seq_length; lia). rewrite seq_nth by lia. cbn [plus].
    specialize (Hfr i Hi). rewrite (Hfs i Hi), (Hcy i Hi), Hmean in Hfr. lra. }
  rewrite E. ring.
Qed.

Lemma C177_residuals_l : forall (env : pp_env R) inv eta k k' s n p X y f f' X0 y0, (k' <= k)%nat -> plain_scale s -> inverse_ok inv ->
  snipls_run (pe_prep env) inv eta k CMean s n p X y f X0 y0 -> snipls_run (pe_prep env) inv eta k' CMean s n p X y f' X0 y0 ->
  nonzero_scores f -> (forall j, (j < p)%nat -> nth j (sn_xsca f) 0 <> 0) -> nth 0 (sn_ysca f) 0 <> 0 ->
  sqlen (sn_resid f) <= sqlen (sn_resid f').
Proof.
  intros env inv eta k k' s n p X y f f' X0 y0 Hk Hps Hinv H H' Hz Hx Hy.
  pose proof (C177_better_l _ _ _ _ _ _ _ _ _ _ _ _ _ _ _ Hk Hinv H H') as HB.
  assert (Hf : snipls_fit (pe_prep env) inv eta k CMean s X y = Ok f) by (apply H). assert (Hf' : snipls_fit (pe_prep env) inv eta k' CMean s X y = Ok f') by (apply H').
  pose proof (nonzero_prefix _ _ _ _ _ _ _ _ _ _ _ Hk Hf Hf' Hz) as Hz'.
  destruct (C177_snipls_l _ _ _ _ _ _ _ _ _ _ _ Hk Hf Hf') as (_ & _ & _ & _ & _ & _ & _ & _ & Ex & _ & Ey).
  rewrite (resid_units env inv eta k s n p X y f X0 y0) by auto.
  rewrite (resid_units env inv eta k' s n p X y f' X0 y0) by (auto; rewrite ?Ex, ?Ey; auto).
  rewrite Ey. apply Rmult_le_compat_l; [nra|exact HB].
Qed.
