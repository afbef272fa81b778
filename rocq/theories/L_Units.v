(** Change of units: scaling. *)

From Coq Require Import Reals List Arith ZArith Bool Lia Lra Permutation.
Import ListNotations.
From Verif Require Import Num Err Vec VecR OrdR L_Mat L_Lin L_Matmul S_Stats L_Stats S_Dicomo S_Units M_Utils M_Preproc M_Robcent
  L_Scaling L_Scaling2 L_Snipls L_OrderSc L_OrderSn.
Open Scope R_scope.

Lemma unit_row_length : forall p a b r, length a = p -> length b = p -> length r = p -> length (unit_row a b r) = p.
Proof. intros p a b r Ha Hb Hr. unfold unit_row. rewrite !map2_length. lia. Qed.
Lemma nth_unit_row : forall p a b r j, length a = p -> length b = p -> length r = p -> (j < p)%nat -> nth j (unit_row a b r) 0 = nth j a 0 * nth j r 0 + nth j b 0.
Proof.
  intros p a b r j Ha Hb Hr Hj. unfold unit_row. rewrite (nth_map2 Rplus _ _ j 0 0 0) by (rewrite ?map2_length; lia).
  rewrite (nth_map2 Rmult _ _ j 0 0 0) by lia. reflexivity.
Qed.
Lemma units_wf : forall n p a b X, length a = p -> length b = p -> wf n p X -> wf n p (units a b X).
Proof. intros n p a b X Ha Hb HX. unfold units. apply (wf_map_rows n p p); auto. intros r Hr. apply unit_row_length; auto. Qed.
Lemma col_units : forall n p a b X j, length a = p -> length b = p -> wf n p X -> (j < p)%nat -> col j (units a b X) = map (fun x => nth j a 0 * x + nth j b 0) (col j X).
Proof.
  intros n p a b X j Ha Hb [HL HF] Hj. unfold units, col. rewrite !map_map. apply map_ext_in. intros r Hr. rewrite Forall_forall in HF. apply (nth_unit_row p); auto.
Qed.
Lemma mget_units : forall n p a b X i j, length a = p -> length b = p -> wf n p X -> (i < n)%nat -> (j < p)%nat -> mget (units a b X) i j = nth j a 0 * mget X i j + nth j b 0.
Proof.
  intros n p a b X i j Ha Hb HX Hi Hj. unfold units. rewrite (mget_map_rows n p) by auto. change (@n0 R Num_R) with 0.
  assert (LR : length (nth i X []) = p) by (apply (wf_row n p X); auto; apply nth_In; rewrite (wf_length n p X HX); auto). rewrite (nth_unit_row p) by auto. reflexivity.
Qed.
Lemma unit_factor : forall p a b j, unit_change p a b -> (j < p)%nat -> 0 < nth j a 0.
Proof. intros p a b j (Ha & _ & HF) Hj. rewrite Forall_forall in HF. apply HF, nth_In. lia. Qed.

(** the scale of a column with spread *)
Lemma spread_sca : forall s v q, unit_scale s -> v <> [] -> has_spread s v -> col_sca s 0 v = Ok q -> 0 < q.
Proof.
  intros s v q [->| ->] Hv H E; cbn [col_sca has_spread] in *.
  - destruct (Req_EM_T 0 0); [|lra]. apply Ok_inj in E. subst q. rewrite variance_of_vvar in H. pose proof (vvar_nonneg v). apply sqrt_lt_R0. lra.
  - apply Ok_inj in E. subst q. pose proof (vmadR_nonneg v) as H0. destruct H0 as [H0|H0]; [exact H0|]. exfalso. apply H.
    pose proof (is_mad_vmad 1 v Hv) as HM. unfold vmadR in H0. pose proof madcR_pos.
    assert (Z : vmedian (map (fun x => Rabs (x - vmedian v)) v) = 0).
    { symmetry in H0. apply (Rmult_eq_compat_r madcR) in H0. unfold Rdiv in H0. rewrite Rmult_assoc, Rinv_l, Rmult_1_r, Rmult_0_l in H0 by lra. exact H0. }
    rewrite Z in HM. unfold Rdiv in HM. rewrite Rmult_0_l in HM. exact HM.
Qed.
Lemma is_spread_sca : forall s v q, unit_scale s -> v <> [] -> is_spread s v q -> col_sca s 0 v = Ok q.
Proof.
  intros s v q [->| ->] Hv H; cbn [col_sca is_spread] in *.
  - destruct (Req_EM_T 0 0); [|lra]. rewrite variance_of_vvar in H. subst. reflexivity.
  - f_equal. symmetry. apply is_mad_unique in H. exact H.
Qed.

(** success of fit_transform for the plain options *)
Lemma ft_columns : forall env c s n p X, wf n p X -> (2 <= n)%nat -> (1 <= p)%nat -> unit_centre c -> unit_scale s ->
  exists m v Z, ft env c s X = Ok (m, v, Z) /\ length m = p /\ length v = p /\ wf n p Z /\
    (forall j, (j < p)%nat -> col_loc c 0 (col j X) = Ok (nth j m 0) /\ col_sca s 0 (col j X) = Ok (nth j v 0)) /\
    (forall i j, (i < n)%nat -> (j < p)%nat -> mget Z i j = (mget X i j - nth j m 0) / (if Req_EM_T (nth j v 0) 0 then 1 else nth j v 0)).
Proof.
  intros env c s n p X HX Hn Hp Hc Hs.
  assert (Hc' : plain_centre c) by (destruct Hc; unfold plain_centre; auto).
  assert (Hs' : plain_scale s) by (destruct Hs; unfold plain_scale; auto).
  destruct (fit_succeeds env c s 0 n p X) as [st0 E0]; auto; [lra| |].
  { intros g [Hg1 _]. rewrite Rmult_0_l in Hg1. assert (g = 0)%nat; [|lia]. destruct g; auto. rewrite S_INR in Hg1. pose proof (pos_INR g). lra. }
  destruct (fit_cols env _ _ 0 n p X st0 HX Hn Hc' Hs' E0) as (m & v & Ec & Es & Hm & Hv & HC).
  apply fit_ok_inv in E0 as (m' & v' & El & Ev & Et & Eb & ->). cbn in Ec, Es, El, Ev, Et, Eb. injection Ec as ->. injection Es as ->.
  destruct (scale_data_cells n p X m v HX ltac:(lia) Hp Hm Hv) as (Z & EZ & WZ & HZ).
  rewrite (check_input_id n p) in El, Ev by auto.
  exists m, v, Z. unfold ft. rewrite Eb, El. cbn [bind]. rewrite Ev. cbn [bind]. rewrite EZ. cbn [bind]. repeat split; auto; try apply WZ; apply HC; auto.
Qed.
Lemma ft_units : forall env c s n p a b X, wf n p X -> (2 <= n)%nat -> (1 <= p)%nat -> unit_centre c -> unit_scale s ->
  unit_change p a b -> (forall j, (j < p)%nat -> has_spread s (column j X)) ->
  exists m v Z, ft env c s X = Ok (m, v, Z) /\ ft env c s (units a b X) = Ok (unit_loc a b m, unit_sca a v, Z) /\
    length m = p /\ length v = p /\ wf n p Z /\ (forall j, (j < p)%nat -> 0 < nth j v 0 /\ col_sca s 0 (col j X) = Ok (nth j v 0)).
Proof.
  intros env c s n p a b X HX Hn Hp Hc Hs Hu Hsp. pose proof Hu as (Ha & Hb & _).
  assert (WU : wf n p (units a b X)) by (apply units_wf; auto).
  destruct (ft_columns env c s n p X HX Hn Hp Hc Hs) as (m & v & Z & E & Lm & Lv & WZ & HC & HZ).
  destruct (ft_columns env c s n p (units a b X) WU Hn Hp Hc Hs) as (m' & v' & Z' & E' & Lm' & Lv' & WZ' & HC' & HZ').
  exists m, v, Z. split; [exact E|].
  assert (NE : forall j, (j < p)%nat -> col j X <> []). { intros j Hj H. apply (f_equal (@length R)) in H. rewrite col_length in H. rewrite (wf_length n p X HX) in H. cbn in H. lia. }
  assert (P : forall j, (j < p)%nat -> 0 < nth j v 0). { intros j Hj. apply (spread_sca s (col j X)); [auto|auto|apply (Hsp j Hj)|apply HC; auto]. }
  assert (PM : forall j, (j < p)%nat -> nth j m' 0 = nth j a 0 * nth j m 0 + nth j b 0).
  { intros j Hj. destruct (HC' j Hj) as [H1 _]. destruct (HC j Hj) as [H2 _]. rewrite (col_units n p) in H1 by auto.
    rewrite (col_loc_affine c 0 (col j X) (nth j m 0)) in H1 by (auto; lra). apply Ok_inj in H1. symmetry. exact H1. }
  assert (PV : forall j, (j < p)%nat -> nth j v' 0 = nth j a 0 * nth j v 0).
  { intros j Hj. destruct (HC' j Hj) as [_ H1]. destruct (HC j Hj) as [_ H2]. rewrite (col_units n p) in H1 by auto.
    rewrite (col_sca_affine s 0 (col j X) (nth j v 0)) in H1 by (auto; lra). apply Ok_inj in H1. symmetry. rewrite <- H1. f_equal.
    rewrite Rabs_right; auto. pose proof (unit_factor p a b j Hu Hj). lra. }
  split; [|repeat split; auto; apply WZ || apply HC; auto].
  rewrite E'. f_equal. f_equal; [f_equal|].
  - apply (list_ext _ _ 0); [unfold unit_loc; rewrite !map2_length; lia|]. intros j Hj. rewrite Lm' in Hj. rewrite PM by auto. symmetry. apply (nth_unit_row p); auto.
  - apply (list_ext _ _ 0); [unfold unit_sca; rewrite map2_length; lia|]. intros j Hj. rewrite Lv' in Hj. rewrite PV by auto. unfold unit_sca. rewrite (nth_map2 Rmult _ _ j 0 0 0) by lia. reflexivity.
  - apply (mat_ext n p); auto. intros i j Hi Hj. rewrite HZ, HZ' by auto. rewrite PM, PV by auto. rewrite (mget_units n p) by auto.
    pose proof (P j Hj). pose proof (unit_factor p a b j Hu Hj). assert (0 < nth j a 0 * nth j v 0) by (apply Rmult_lt_0_compat; auto).
    destruct (Req_EM_T (nth j a 0 * nth j v 0) 0); [lra|]. destruct (Req_EM_T (nth j v 0) 0); [lra|]. field. lra.
Qed.

(** the response *)
Lemma column_units : forall c d (y : list R), map (fun v => [v]) (affine c d y) = units [c] [d] (map (fun v => [v]) y).
Proof. intros c d y. unfold affine, units. rewrite !map_map. reflexivity. Qed.
Lemma column_single : forall y : list R, column 0 (map (fun v => [v]) y) = y.
Proof. intros y. unfold column. rewrite map_map. cbn [nth]. apply map_id. Qed.
Lemma unit_change1 : forall c d, 0 < c -> unit_change 1 [c] [d].
Proof. intros c d Hc. repeat split. constructor; auto. Qed.
Lemma affine_length : forall c d y, length (affine c d y) = length y. Proof. intros. apply map_length. Qed.

(** the back-transformed coefficients *)
Lemma unit_bres : forall p a b c sX sy B, unit_change p a b -> length sX = p -> length sy = 1%nat -> (forall j, (j < p)%nat -> 0 < nth j sX 0) ->
  map2 (fun sx bj => nth 0 (unit_sca [c] sy) 0 / sx * bj) (unit_sca a sX) B = unit_coef a c (map2 (fun sx bj => nth 0 sy 0 / sx * bj) sX B).
Proof.
  intros p a b c sX sy B Hu LX Ls HP. pose proof Hu as (Ha & _ & _). unfold unit_coef, unit_sca. apply (list_ext _ _ 0); [rewrite !map2_length; lia|].
  intros j Hj. rewrite !map2_length in Hj. assert (Hj' : (j < p)%nat) by lia. 
  rewrite (nth_map2 _ (map2 Rmult a sX) B j 0 0 0) by (rewrite ?map2_length; lia). rewrite (nth_map2 Rmult a sX j 0 0 0) by lia. rewrite (nth_map2 _ a _ j 0 0 0) by (rewrite ?map2_length; lia).
  rewrite (nth_map2 _ sX B j 0 0 0) by lia. rewrite (nth_map2 Rmult [c] sy 0 0 0 0) by (cbn; lia). cbn [nth].
  pose proof (HP j Hj'). pose proof (unit_factor p a b j Hu Hj'). unfold Rdiv. rewrite Rinv_mult. ring.
Qed.
Lemma inner_dot : forall u v : list R, inner u v = dot u v.
Proof.
  induction u as [|x u IH]; intros v; [reflexivity|]. destruct v as [|y v]; [reflexivity|]. specialize (IH v). unfold inner in *. cbn [combine map fst snd sum_of fold_right]. 
  rewrite dot_cons. rnum. f_equal. exact IH.
Qed.
Lemma dot_nil_r : forall u : list R, dot u [] = 0.
Proof. intros [|x u]; reflexivity. Qed.
Lemma unit_dot : forall p a b c r beta, unit_change p a b -> length r = p -> dot (unit_row a b r) (unit_coef a c beta) = c * dot r beta + inner b (unit_coef a c beta).
Proof.
  intros p a b c r beta (Ha & Hb & HF). rewrite inner_dot. revert b r beta p Ha Hb HF. induction a as [|x a IH]; intros b r beta p Ha Hb HF Hr.
  - cbn in Ha. subst p. destruct b; [|discriminate]. destruct r; [|discriminate]. cbn. unfold dot. cbn. rnum. ring.
  - destruct p; [discriminate|]. destruct b as [|y b]; [discriminate|]. destruct r as [|z r]; [discriminate|]. 
    unfold unit_row, unit_coef in *. destruct beta as [|w beta]; cbn [map2]; [rewrite !dot_nil_r; ring|]. rewrite !dot_cons. inversion HF; subst. rewrite (IH b r beta p) by (cbn in *; auto; lia). rnum. field. lra.
Qed.
Lemma unit_matvec : forall n p a b c X beta, unit_change p a b -> wf n p X ->
  matvec (units a b X) (unit_coef a c beta) = affine c (inner b (unit_coef a c beta)) (matvec X beta).
Proof.
  intros n p a b c X beta Hu [HL HF]. unfold matvec, units, affine. rewrite !map_map. apply map_ext_in. intros r Hr. rewrite Forall_forall in HF. apply (unit_dot p); auto.
Qed.
