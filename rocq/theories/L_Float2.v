(** The case weights of rm and sprm in rounded arithmetic *)
From Coq Require Import Reals List Arith ZArith Bool Lia Lra.
Import ListNotations.
From Verif Require Import Num Err Vec VecR OrdR L_Mat S_Weights M_Utils M_Preproc M_Robcent M_Msupport M_Float S_Float L_Float M_Rm M_Sprm S_Rm S_Sprm L_Rm L_Sprm.
Open Scope R_scope.

Lemma w1_01 : forall rnd f c b r v, rounding rnd -> cutoffs_ok f c b r -> rnd c = c -> rnd b = b -> rnd r = r -> 0 <= w1 rnd f c b r v <= 1.
Proof.
  intros rnd f c b r v HR HC Hc Hb Hr. destruct (Rle_lt_dec 0 v) as [H|H].
  - destruct (weights_l rnd f c b r [v] HR HC Hc Hb Hr) as (_ & B & _); [constructor; [exact H|constructor]|]. apply (B 0%nat). cbn. lia.
  - destruct (weights_l rnd f c b r [0] HR HC Hc Hb Hr) as (_ & B & _); [constructor; [lra|constructor]|]. specialize (B 0%nat ltac:(cbn; lia)).
    destruct f; cbn in HC.
    + rewrite (fair_val rnd HR) by exact Hc. pose proof (fair_sq rnd HR c v). split; [apply rnd_nonneg; [exact HR|]|apply rnd_le1; [exact HR|]]; apply quot_01; lra.
    + unfold w1. cbn in *. rewrite (proj2 (Rleb_true v c)) by lra. rewrite (proj2 (Rleb_true 0 c)) in B by lra. exact B.
    + unfold w1. cbn in *. rewrite (proj2 (Rleb_true v c)) by lra. rewrite (proj2 (Rleb_true 0 c)) in B by lra. exact B.
Qed.
Lemma weight_01 : forall rnd f c b r x i, rounding rnd -> cutoffs_ok f c b r -> rnd c = c -> rnd b = b -> rnd r = r -> (i < length x)%nat ->
  0 <= nth i (@mweights R (Num_rnd rnd) f c b r x) 0 <= 1.
Proof. intros rnd f c b r x i HR HC Hc Hb Hr Hi. rewrite nth_w1 by exact Hi. apply w1_01; assumption. Qed.
Lemma prod_01 : forall rnd a b, rounding rnd -> 0 <= a <= 1 -> 0 <= b <= 1 -> 0 <= rnd (a * b) <= 1.
Proof. intros rnd a b HR Ha Hb. split; [apply rnd_nonneg; [exact HR|]|apply rnd_le1; [exact HR|]]; nra. Qed.
Lemma wmin_rnd : forall rnd, @wmin R (Num_rnd rnd) = rnd (1 / 1000000).
Proof. intros rnd. reflexivity. Qed.

(** one case: the products and what is stored *)
Lemma one_case : forall rnd a b t, rounding rnd -> 0 <= a <= 1 -> 0 <= b <= 1 -> t = rnd (1 / 1000000) ->
  (if Rltb (rnd (a * b)) t then 0 else rnd (a * b)) = 0 \/ t <= (if Rltb (rnd (a * b)) t then 0 else rnd (a * b)) <= 1.
Proof.
  intros rnd a b t HR Ha Hb ->. destruct (prod_01 rnd a b HR Ha Hb). destruct (Rltb _ _) eqn:E; [left; reflexivity|]. rcmp_all. right. lra.
Qed.

Lemma rm_weights_l : forall rnd (env : rm_env R) (P : rm_par R) X y m, rounding rnd ->
  @rm_fit R (Num_rnd rnd) env P X y = Ok m -> X <> [] ->
  (forall f, r_fun P = Some f -> let c := @cty R env P in let b := @cby R env P in let r := @cry R env P in
     cutoffs_ok f c b r /\ rnd c = c /\ rnd b = b /\ rnd r = r) ->
  (forall f, r_fun P = Some f -> let c := @ctx R env P (ncols X) in let b := @cbx R env P (ncols X) in let r := @crx R env P (ncols X) in
     cutoffs_ok f c b r /\ rnd c = c /\ rnd b = b /\ rnd r = r) ->
  length (rm_cw m) = length X /\ length (rm_xcw m) = length X /\ length (rm_ycw m) = length X /\
  forall i, (i < length X)%nat ->
    0 <= nth i (rm_xcw m) 0 <= 1 /\ 0 <= nth i (rm_ycw m) 0 <= 1 /\
    (nth i (rm_cw m) 0 = 0 \/ rnd (1 / 1000000) <= nth i (rm_cw m) 0 <= 1) /\
    nth i (rm_cw m) 0 = rnd (nth i (rm_xcw m) 0 * nth i (rm_ycw m) 0).
Proof.
  intros rnd env P X y m HR E Hne Hcuty Hcutx.
  assert (Hn : (1 <= length X)%nat) by (destruct X; [congruence|cbn; lia]).
  apply rm_fit_inv in E as (f & st1 & Xs & st2 & Ys & mX & sX & my & sy & st & calls & Hchk & Hly & H1 & Ex & Ey & _ & _ & _ & _ & El & Ef).
  assert (Hf : r_fun P = Some f).
  { unfold rm_check in Hchk. destruct (r_fun P) as [g|]; [|discriminate]. destruct (_ || _); [discriminate|].
    destruct g; try (apply Ok_inj in Hchk as <-; reflexivity). destruct (negb _); [discriminate|]. apply Ok_inj in Hchk as <-; reflexivity. }
  destruct (Hcuty f Hf) as (Y1 & Y2 & Y3 & Y4). destruct (Hcutx f Hf) as (X1 & X2 & X3 & X4).
  apply rm_finish_inv in Ef as (b & Eb & Hs & Ef). cbv zeta in Ef. destruct Ef as (_ & _ & _ & _ & _ & Exw & Eyw & Ecw & _).
  assert (HlX : length Xs = length X).
  { rewrite (fit_transform_rows _ _ _ _ _ Ex). unfold check_input. rewrite H1. reflexivity. }
  assert (HlY : length (col 0 Ys) = length X).
  { unfold col. rewrite map_length, (fit_transform_rows _ _ _ _ _ Ey). rewrite <- Hly. unfold check_input. cbn [length ncols hd].
    unfold ncols. cbn [hd]. destruct (Nat.leb_spec 2 (length y)); cbn [Nat.eqb andb length hd]; [apply map_length|].
    destruct y as [|v [|? ?]]; cbn in *; lia. }
  assert (Hdx : length (@start_dx R (Num_rnd rnd) Xs) = length X) by (unfold start_dx; rewrite !map_length; auto).
  assert (Hwx : length (@start_wx R (Num_rnd rnd) env P f (ncols X) Xs) = length X) by (unfold start_wx; rewrite mweights_length; exact Hdx).
  apply loop_passed in El as [[-> _]|Hp]; [discriminate|]. destruct Hp as (b' & Eb' & Ewye & Ew0 & Ewe).
  assert (Hrl : length (@std_resid R (Num_rnd rnd) (@vsub R (Num_rnd rnd) (col 0 Ys) (@matvec R (Num_rnd rnd) Xs b'))) = length X).
  { rewrite std_resid_length. unfold vsub. rewrite map2_length_eq; [auto|]. unfold matvec. rewrite map_length. lia. }
  assert (Hye : length (l_wye st) = length X) by (rewrite Ewye, mweights_length; exact Hrl).
  assert (Ux : forall i, (i < length X)%nat -> 0 <= nth i (@start_wx R (Num_rnd rnd) env P f (ncols X) Xs) 0 <= 1).
  { intros i Hi. unfold start_wx. apply weight_01; auto. lia. }
  assert (Uy : forall i, (i < length X)%nat -> 0 <= nth i (l_wye st) 0 <= 1).
  { intros i Hi. rewrite Ewye. apply weight_01; auto. exact (eq_ind_r (fun k => (i < k)%nat) Hi Hrl). }
  set (wx := @start_wx R (Num_rnd rnd) env P f (ncols X) Xs) in *.
  assert (Hw : length (@vmul R (Num_rnd rnd) (l_wye st) wx) = length X) by (unfold vmul; rewrite map2_length_eq; lia).
  assert (Hwe : length (l_we st) = length X) by (rewrite Ewe; unfold floor_w; rewrite set_idx_length; auto).
  rewrite Exw, Eyw, Ecw, !set_idx_length. do 3 (split; [auto|]). intros i Hi.
  rewrite !set_idx_nth by lia. rewrite Ewe. unfold floor_w. rewrite set_idx_nth by lia. rewrite Ew0. rewrite (low_spec _ i 0) by lia.
  assert (Hv : nth i (@vmul R (Num_rnd rnd) (l_wye st) wx) 0 = rnd (nth i (l_wye st) 0 * nth i wx 0)).
  { unfold vmul. rewrite (nth_map2 _ _ _ i 0 0 0) by lia. reflexivity. }
  rewrite Hv. specialize (Ux i Hi). specialize (Uy i Hi). pose proof (one_case rnd _ _ _ HR Uy Ux eq_refl) as Hone.
  cbn [nltb n0 Num_rnd]. rewrite wmin_rnd. destruct (Rltb _ _) eqn:Elt.
  - split; [lra|]. split; [lra|]. split; [left; reflexivity|]. rewrite Rmult_0_l. symmetry. apply (rnd_0 rnd HR).
  - split; [exact Ux|]. split; [exact Uy|]. split; [exact Hone|]. f_equal. ring.
Qed.

Lemma sprm_weights_l : forall rnd (env : sp_env R) (P : sp_par R) df X y m, rounding rnd ->
  @sprm_fit R (Num_rnd rnd) env P df X y = Ok m -> (2 <= length X)%nat -> svd_rows env ->
  (let c := re_normppf (se_rm env) (s_p1 P) in let b := re_normppf (se_rm env) (s_p2 P) in let r := re_normppf (se_rm env) (s_p3 P) in
     cutoffs_ok (sp_fun m) c b r /\ rnd c = c /\ rnd b = b /\ rnd r = r) ->
  (cutoffs_ok (sp_fun m) (sp_ctx m) (sp_cbx m) (sp_crx m) /\ rnd (sp_ctx m) = sp_ctx m /\ rnd (sp_cbx m) = sp_cbx m /\ rnd (sp_crx m) = sp_crx m) ->
  length (sp_cw m) = length X /\ length (sp_xcw m) = length X /\ length (sp_ycw m) = length X /\
  forall i, (i < length X)%nat ->
    0 <= nth i (sp_xcw m) 0 <= 1 /\ 0 <= nth i (sp_ycw m) 0 <= 1 /\
    (nth i (sp_cw m) 0 = 0 \/ rnd (1 / 1000000) <= nth i (sp_cw m) 0 <= 1) /\
    nth i (sp_cw m) 0 = rnd (nth i (sp_xcw m) 0 * nth i (sp_ycw m) 0).
Proof.
  intros rnd env P df X y m HR E Hn Hsvd (Y1 & Y2 & Y3 & Y4) (X1 & X2 & X3 & X4).
  apply run_states in E as (P' & Xs & ys & cuts & st & Hst & HlX & HP1 & HP2 & HP3 & HP4 & Hly & Ecu & k & Hp & Exw & Eyw & Ecw); auto.
  destruct Hst as (L1 & L2 & L3). destruct Hp as (sw & fit & T & dt & _ & _ & _ & _ & Ewye & Ewte & Ew0 & Ewe).
  rewrite Ecu in Ewte. cbn [fst snd] in Ewte. unfold cty, cby, cry, sp_rm in Ewye. cbn [r_p1 r_p2 r_p3] in Ewye. rewrite HP2, HP3, HP4 in Ewye.
  assert (Ux : forall i, (i < length X)%nat -> 0 <= nth i (q_wte st) 0 <= 1).
  { intros i Hi. rewrite Ewte. apply weight_01; auto. apply (f_equal (@length R)) in Ewte. rewrite mweights_length in Ewte. rewrite <- Ewte. lia. }
  assert (Uy : forall i, (i < length X)%nat -> 0 <= nth i (q_wye st) 0 <= 1).
  { intros i Hi. rewrite Ewye. apply weight_01; auto. apply (f_equal (@length R)) in Ewye. rewrite mweights_length in Ewye. rewrite <- Ewye. lia. }
  rewrite Exw, Eyw, Ecw, !set_idx_length. do 3 (split; [lia|]). intros i Hi.
  rewrite !set_idx_nth by lia. rewrite Ewe. unfold floor_w. rewrite set_idx_nth by (rewrite vmul_length; lia). rewrite Ew0.
  rewrite (low_spec _ i 0) by (rewrite vmul_length; lia).
  assert (Hv : nth i (@vmul R (Num_rnd rnd) (q_wye st) (q_wte st)) 0 = rnd (nth i (q_wye st) 0 * nth i (q_wte st) 0)).
  { unfold vmul. rewrite (nth_map2 _ _ _ i 0 0 0) by lia. reflexivity. }
  rewrite Hv. specialize (Ux i Hi). specialize (Uy i Hi). pose proof (one_case rnd _ _ _ HR Uy Ux eq_refl) as Hone.
  cbn [nltb n0 Num_rnd]. rewrite wmin_rnd. destruct (Rltb _ _) eqn:Elt.
  - split; [lra|]. split; [lra|]. split; [left; reflexivity|]. rewrite Rmult_0_l. symmetry. apply (rnd_0 rnd HR).
  - split; [exact Ux|]. split; [exact Uy|]. split; [exact Hone|]. f_equal. ring.
Qed.
