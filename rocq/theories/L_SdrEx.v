(** Concrete routines for two columns, used in the examples of T_Sudire: the
    eigenvectors of a symmetric 2 x 2 matrix, the inverse of the identity. *)

From Coq Require Import String Reals List Arith ZArith Bool Lra Lia.
Import List. Import ListNotations.
From Verif Require Import Num Err Vec VecR S_Stats S_Regress L_Mat L_Lin L_Matmul L_Stats M_Utils M_Preproc M_Robcent L_Scaling M_Dicomo M_Ipopt M_SdrUtils M_Sudire S_Sudire S_SdrDim
  L_Sdr L_SdrMat L_SdrKer L_SdrEig L_SdrPow L_SdrMeth L_SdrFit L_SdrFit2 L_SdrFit3 L_SdrCov L_SdrEst L_SdrMore.
Open Scope R_scope.

Definition eigh2 (M : list (list R)) : res (list R * list (list R)) :=
  match M with
  | [[a; b]; [c; d]] =>
      if Req_EM_T b 0 then Ok ([a; d], [[1; 0]; [0; 1]])
      else let s := sqrt ((a - d) * (a - d) + 4 * b * b) in
           let l1 := (a + d + s) / 2 in let l2 := (a + d - s) / 2 in
           let r := sqrt (b * b + (l1 - a) * (l1 - a)) in
           Ok ([l1; l2], [[b / r; - ((l1 - a) / r)]; [(l1 - a) / r; b / r]])
  | _ => Err LinAlgError
  end.

Lemma two_cases : forall i, (i < 2)%nat -> i = 0%nat \/ i = 1%nat. Proof. lia. Qed.

Lemma eigh2_ok : eigh_ok eigh2.
Proof.
  intros p M vals V Hp [LM FM] HS E. unfold eigh2 in E.
  destruct M as [|[|a [|b [|? ?]]] [|[|c [|d [|? ?]]] [|? ?]]]; try discriminate. cbn in LM. subst p.
  assert (Ec : b = c) by exact (HS 0%nat 1%nat ltac:(lia) ltac:(lia)). subst c.
  destruct (Req_EM_T b 0) as [->|Hb].
  - apply Ok_inj in E. injection E as <- <-. split; [reflexivity|]. split.
    + split; [split; [reflexivity|repeat constructor]|]. intros i j Hi Hj. destruct (two_cases i Hi) as [->| ->], (two_cases j Hj) as [->| ->]; unfold sum_to, sum_of, cell, delta; cbn; split; ring.
    + intros i j Hi Hj. destruct (two_cases i Hi) as [->| ->], (two_cases j Hj) as [->| ->]; unfold sum_to, sum_of, cell; cbn; ring.
  - apply Ok_inj in E. set (s := sqrt ((a - d) * (a - d) + 4 * b * b)) in *. set (l1 := (a + d + s) / 2) in *. set (l2 := (a + d - s) / 2) in *.
    set (r := sqrt (b * b + (l1 - a) * (l1 - a))) in *. injection E as <- <-.
    assert (Hs : s * s = (a - d) * (a - d) + 4 * b * b) by (apply sqrt_sqrt; pose proof (Rle_0_sqr (a - d)) as Q1; pose proof (Rle_0_sqr b) as Q2; unfold Rsqr in *; lra).
    assert (Hb2 : 0 < b * b) by (apply Rsqr_pos_lt; auto). pose proof (Rle_0_sqr (l1 - a)) as Hl2. unfold Rsqr in Hl2.
    assert (Hq : 0 < b * b + (l1 - a) * (l1 - a)) by lra.
    assert (Hr : r * r = b * b + (l1 - a) * (l1 - a)) by (apply sqrt_sqrt; lra).
    assert (Hr0 : 0 < r) by (apply sqrt_lt_R0; auto).
    assert (P1 : (l1 - a) * (l1 - a) = b * b + (d - a) * (l1 - a)) by (unfold l1; nra).
    assert (U : b / r * (b / r) + (l1 - a) / r * ((l1 - a) / r) = 1).
    { replace (b / r * (b / r) + (l1 - a) / r * ((l1 - a) / r)) with ((b * b + (l1 - a) * (l1 - a)) / (r * r)) by (field; lra). rewrite <- Hr. field. lra. }
    split; [reflexivity|]. split.
    + split; [split; [reflexivity|repeat constructor]|]. intros i j Hi Hj. destruct (two_cases i Hi) as [->| ->], (two_cases j Hj) as [->| ->]; unfold sum_to, sum_of, cell, delta; cbn; split; lra.
    + assert (Q1 : a * b + b * (l1 - a) = l1 * b) by ring.
      assert (Q2 : b * b + d * (l1 - a) = l1 * (l1 - a)) by nra.
      assert (Q3 : - (a * (l1 - a)) + b * b = - (l2 * (l1 - a))) by (unfold l2, l1 in *; nra).
      assert (Q4 : - (b * (l1 - a)) + d * b = l2 * b) by (unfold l2, l1 in *; nra).
      intros i j Hi Hj. destruct (two_cases i Hi) as [->| ->], (two_cases j Hj) as [->| ->]; unfold sum_to, sum_of, cell; cbn; unfold Rdiv.
      * transitivity ((a * b + b * (l1 - a)) * / r); [ring|rewrite Q1; ring].
      * transitivity ((- (a * (l1 - a)) + b * b) * / r); [ring|rewrite Q3; ring].
      * transitivity ((b * b + d * (l1 - a)) * / r); [ring|rewrite Q2; ring].
      * transitivity ((- (b * (l1 - a)) + d * b) * / r); [ring|rewrite Q4; ring].
Qed.
Lemma eigh2_total : forall M f, rep 2 2 M f -> exists r, eigh2 M = Ok r.
Proof.
  intros M f [[LM FM] _]. destruct M as [|r1 [|r2 [|? ?]]]; try discriminate. inversion FM as [|? ? F1 F2]; subst. inversion F2 as [|? ? F3 _]; subst.
  destruct r1 as [|a [|b [|? ?]]]; try discriminate. destruct r2 as [|c [|d [|? ?]]]; try discriminate. cbn. destruct (Req_EM_T b 0); eauto.
Qed.

Definition mat_eq_dec (M N : list (list R)) : {M = N} + {M <> N} := list_eq_dec (list_eq_dec Req_EM_T) M N.
(** defined on identity matrices only *)
Definition inv_id (M : list (list R)) : res (list (list R)) := if mat_eq_dec M (identity (length M)) then Ok M else Err LinAlgError.
Lemma inv_id_ok : inverse_ok inv_id.
Proof.
  intros k M N [LM FM] E. unfold inv_id in E. destruct (mat_eq_dec M (identity (length M))) as [EM|]; [|discriminate]. apply Ok_inj in E. subst N. split; [split; auto|].
  intros i j Hi Hj. rewrite LM in EM. rewrite EM. destruct (rep_identity k) as [_ HI]. change (sum_of (map ?f (seq 0 k))) with (sumn k f).
  rewrite (sumn_ext k _ (fun a => delta i a * delta a j)); [|intros a Ha; change cell with (mget (A := R)); rewrite !HI by auto; reflexivity].
  rewrite (sumn_ext k _ (fun a => (if (a =? i)%nat then delta i j else 0))).
  - rewrite (sumn_delta k i (fun _ => delta i j)) by auto. reflexivity.
  - intros a Ha. unfold delta. rewrite (Nat.eqb_sym i a). destruct (Nat.eqb_spec a i) as [->|]; ring.
Qed.
Lemma inv_id_orth : forall p h P, (0 < p)%nat -> wf p h P -> orthonormal_columns p h P -> inv_id (matmul (transpose P) P) = Ok (matmul (transpose P) P).
Proof.
  intros p h P Hp W O. pose proof (rep_self p h P W) as RP. pose proof (rep_matmul h p h _ _ _ _ Hp (rep_transpose p h P _ Hp RP) RP) as RM.
  unfold inv_id. destruct (mat_eq_dec _ _) as [|N]; [auto|]. exfalso. apply N. rewrite (wf_length _ _ _ (proj1 RM)).
  eapply rep_eq; [exact RM|apply rep_identity|]. exact O.
Qed.

(** routines that are only asked for their shape *)
Definition no_svd2 (M : list (list R)) : res (list (list R) * list R * list (list R)) := Err LinAlgError.
Lemma no_svd2_ok : svd_shapes no_svd2. Proof. intros a b M V s U _ E. discriminate. Qed.
Definition ex_env (isq : list (list R) -> res (list (list R))) (ip : dict -> (list R -> res R) -> list (list R -> res R) -> list R -> res (list R)) (ols : list (list R) -> list R -> res (list R)) : sd_env R :=
  mk_sdenv {| env_l1opt := fun _ x => x; env_es2 := 1 |} eigh2 isq inv_id no_svd2 (fun B => Ok B) (fun _ _ => Ok 0) ols ip.
Definition ex_prm (mt : meth R) (h : nat) (center scale : bool) : sparams R := mk_sp mt h 0 CMean center scale false false 2 true true true.
Definition ex_st (mt : meth R) (h : nat) (center scale : bool) (d : dict) : sstate R := mk_ss (ex_prm mt h center scale) None None None None d.

Section Ex.
  Variables (isq : list (list R) -> res (list (list R))) (ip : dict -> (list R -> res R) -> list (list R -> res R) -> list R -> res (list R)) (ols : list (list R) -> list R -> res (list R)).
  Hypothesis Hq : forall M, exists N, isq M = Ok N.
  Hypothesis Ho : forall M v, exists b, ols M v = Ok b.
  Let env := ex_env isq ip ols.

  Lemma ex_signsqrt : forall n X, (0 < n)%nat -> wf n 2 X -> exists S, signsqrt eigh2 X = Ok S.
  Proof.
    intros n X Hn W. unfold signsqrt. rewrite (wf_ncols n 2 X W Hn). cbn [Nat.eqb]. unfold matpower.
    pose proof (rep_cov n 2 X Hn W) as RC. destruct (npcov X) as [|[|a [|b [|? ?]]] [|[|c [|d [|? ?]]] [|? ?]]] eqn:EC;
      try (destruct RC as [[LC FC] _]; try discriminate LC; inversion FC as [|? ? F1 F2]; subst; try discriminate F1; inversion F2 as [|? ? F3 F4]; subst; discriminate F3).
    cbn. destruct (Req_EM_T _ 0); cbn; eexists; reflexivity.
  Qed.
  (** principal Hessian directions of any data with two columns *)
  Lemma ex_phd : forall n X y h, (0 < n)%nat -> wf n 2 X -> length y = n -> exists P, PHD eigh2 X y h false false = Ok P /\ leading eigh2 (phd_kernel X y) h = Ok P.
  Proof.
    intros n X y h Hn W Ly. unfold PHD, standardised. destruct (ex_signsqrt n X Hn W) as [S ->]. cbn [bind]. rewrite Ly, (wf_length _ _ _ W), Nat.eqb_refl. cbn [negb].
    unfold leading. destruct (eigh2_total _ _ (rep_phd n 2 X y Hn W Ly)) as [[vals V] EV]. rewrite EV. cbn [bind back]. eauto.
  Qed.
  Lemma ex_fit : forall n X y h mc b d, (exists N, isq (npcov X) = Ok N) -> (2 <= n)%nat -> wf n 2 X -> length y = n -> (1 <= h <= 2)%nat ->
    exists m, sd_fit env (ex_st MPhd h false false d) X (A1 y) mc b = (mk_ss (ex_prm MPhd h false false) (Some X) None None None d, Ok m).
  Proof.
    intros n X y h mc b d [N EN] Hn W Ly Hh. unfold sd_fit, ex_st. cbn [ss_prm ex_prm sp_copy sp_ncomp ss_start ss_cons ss_args ss_dict sd_whitening sp_whiten].
    rewrite (wf_length _ _ _ W), (wf_ncols n 2 X W) by lia. rewrite Nat.min_r by lia.
    destruct (2 <? h)%nat eqn:E2; [apply Nat.ltb_lt in E2; lia|].
    assert (EPr : exists pd, sd_prepare env (ex_prm MPhd h false false) X = Ok pd /\ pd_Xs pd = X /\ pd_V pd = None).
    { unfold sd_prepare. rewrite (wf_ncols n 2 X W) by lia. cbn [Nat.eqb]. cbv zeta. unfold env at 1, ex_env at 1. cbn [se_isqrt]. rewrite EN. cbn [bind].
      cbn [ex_prm sp_compress sp_center_data sp_scale_data sp_whiten]. rewrite andb_false_r. cbn [bind]. eexists. split; [reflexivity|]. auto. }
    destruct EPr as [pd [EPr [EX EV]]]. unfold ex_prm in EPr |- *. rewrite EPr. cbn [bind].
    assert (EY : sd_response n (A1 y) = Ok y).
    { unfold sd_response. rewrite map_length, Ly, Nat.eqb_refl. cbn [negb].
      replace (forallb _ _) with true by (symmetry; apply forallb_forall; intros r Hr; apply in_map_iff in Hr as [v [<- _]]; reflexivity). cbn [negb].
      f_equal. unfold col. rewrite map_map. apply map_id. }
    rewrite EY. cbn [bind]. unfold sd_direct. cbn [sp_meth sp_ncomp sp_center_data sp_scale_data]. cbv zeta. rewrite EX.
    destruct (ex_phd n X y h ltac:(lia) W Ly) as [P [EP EL]]. unfold env at 1 2, ex_env at 1 2. cbn [se_eigh]. rewrite EP. cbn [bind n2_times].
    destruct (leading_spec eigh2 2 (phd_kernel X y) _ h P eigh2_ok ltac:(lia) (rep_phd n 2 X y ltac:(lia) W Ly)) as [WP [OP _]]; auto.
    { intros i j. unfold response_weighted. f_equal. apply sumn_ext. intros; ring. }
    rewrite Nat.min_l in * by lia. unfold sd_finish, projector. unfold env, ex_env. cbn [se_inv se_ols].
    rewrite (inv_id_orth 2 h P) by (auto; lia). cbn [bind]. rewrite (npmatmul_total n 2 h) by (auto; lia). cbn [bind]. cbv zeta.
    destruct (Ho (add_constant (matmul X P)) y) as [bb Eb]. rewrite Eb. cbn [bind]. rewrite EV. cbn [bind sp_return sd_is_mean sp_center andb negb]. eauto.
  Qed.
  Lemma ex_fresh : forall n X y h d, (2 <= n)%nat -> wf n 2 X -> length y = n -> (1 <= h <= 2)%nat ->
    exists P, fresh_proj env (est_prm MPhd CMean false false 2 h) d X y = (d, Ok P).
  Proof.
    intros n X y h d Hn W Ly Hh. unfold fresh_proj. unfold sd_init. cbn [est_prm sp_center].
    destruct (ex_fit n X y h euclid false d (Hq _) Hn W Ly Hh) as [m Em]. unfold ex_st, ex_prm in Em. unfold est_prm. change (n0 (A := R)) with 0. rewrite Em. cbn [ss_dict bind]. eauto.
  Qed.
  Lemma ex_boot : forall n X y h dr (sv : list (list R) -> res R) Q, (2 <= n)%nat -> wf n 2 X -> length y = n -> (1 <= h <= 2)%nat -> (forall b, wf n 2 (resample X (dr b))) -> (forall M, exists v, sv M = Ok v) ->
    forall bs d diffs, exists r, est_boot env (est_prm MPhd CMean false false 2 h) dr sv X y Q bs d diffs = (d, Ok r).
  Proof.
    intros n X y h dr sv Q Hn W Ly Hh Hd Hs bs. induction bs as [|b bs IH]; intros d diffs; cbn [est_boot]; [eauto|].
    destruct (ex_fresh n (resample X (dr b)) y h d Hn (Hd b) Ly Hh) as [P EP]. unfold resample in EP. rewrite EP. cbn [bind].
    destruct (Hs (msub Q P)) as [v Ev]. rewrite Ev. apply IH.
  Qed.
  Lemma ex_loop : forall n X y dr (sv : list (list R) -> res R) B, (2 <= n)%nat -> wf n 2 X -> length y = n -> (forall k b, wf n 2 (resample X (dr k b))) -> (forall M, exists v, sv M = Ok v) ->
    forall ks d diffs means, (forall k, In k ks -> (1 <= k <= 2)%nat) -> exists r, est_loop env (est_prm MPhd CMean false false 2) dr sv B X y ks d diffs means = (d, Ok r).
  Proof.
    intros n X y dr sv B Hn W Ly Hd Hs ks. induction ks as [|k ks IH]; intros d diffs means Hk; cbn [est_loop]; [eauto|].
    destruct (ex_fresh n X y k d Hn W Ly ltac:(apply Hk; left; auto)) as [P EP]. rewrite EP.
    destruct (ex_boot n X y k (dr k) sv P Hn W Ly ltac:(apply Hk; left; auto) (Hd k) Hs (seq 0 B) d diffs) as [r Er]. rewrite Er. apply IH. intros k' H'. apply Hk. right; auto.
  Qed.
  Lemma ex_estimate : forall n X y dr (sv : list (list R) -> res R) B d, (2 <= n)%nat -> wf n 2 X -> length y = n -> (forall k b, wf n 2 (resample X (dr k b))) -> (forall M, exists v, sv M = Ok v) ->
    exists k means, estimate_structural_dim env MPhd CMean false false 2 X y B dr sv d = (d, Ok (k, means)).
  Proof.
    intros n X y dr sv B d Hn W Ly Hd Hs. unfold estimate_structural_dim. rewrite (wf_ncols n 2 X W) by lia.
    destruct (ex_loop n X y dr sv B Hn W Ly Hd Hs (seq 1 2) d [] [] ltac:(intros k H; apply in_seq in H; lia)) as [r Er]. rewrite Er. cbn [bind].
    destruct (est_loop_spec _ _ _ _ _ _ _ _ _ _ _ _ _ Er) as [bl [_ ->]]. cbn [seq map length app argmin bind]. eauto.
  Qed.
End Ex.

(** the sliced methods succeed when there are enough different responses *)
Lemma ex_sliced : forall n X y k c s, (0 < n)%nat -> wf n 2 X -> length y = n -> (k <= length (distinct y))%nat ->
  exists S Z, sliced eigh2 X y k false c s = Ok (S, Z, y, firstn k (distinct y)) /\ wf n 2 Z /\ wf 2 2 S.
Proof.
  intros n X y k c s Hn W Ly Hk. unfold sliced. destruct (ex_signsqrt n X Hn W) as [S ES]. rewrite ES. cbn [bind].
  assert (WS : wf 2 2 S) by exact (proj1 (signsqrt_spec eigh2 n 2 X S eigh2_ok Hn ltac:(lia) W ES)).
  assert (WC : wf n 2 (if c then minus_mean X else X)) by (destruct c; [apply (rep_minus_mean n 2 X Hn W)|auto]).
  assert (EZ : exists Z, (if s then npmatmul (if c then minus_mean X else X) S else Ok (if c then minus_mean X else X)) = Ok Z /\ wf n 2 Z).
  { destruct s; [|eauto]. rewrite (npmatmul_total n 2 2) by auto. eexists. split; [reflexivity|]. apply (rep_matmul n 2 2 _ _ _ _ ltac:(lia) (rep_self _ _ _ WC) (rep_self _ _ _ WS)). }
  destruct EZ as [Z [EZ WZ]]. rewrite EZ. cbn [bind response_labels].
  rewrite slice_labels_distinct; [|intros ->; cbn in Ly; lia|rewrite (wf_length _ _ _ W); lia]. cbn [bind]. unfold used_labels.
  destruct (Nat.ltb_spec (length (distinct y)) k); [lia|]. cbn [bind]. rewrite (wf_length _ _ _ W), Ly, Nat.eqb_refl. cbn [negb andb]. eauto.
Qed.
Lemma ex_back : forall M f h S s, rep 2 2 M f -> wf 2 2 S -> (forall i j, f i j = f j i) -> exists B, bind (leading eigh2 M h) (back s S) = Ok B.
Proof.
  intros M f h S s RM WS Hsym. unfold leading. destruct (eigh2_total M f RM) as [[vals V] EV]. pose proof (leading_spec eigh2 2 M f h) as HL. unfold leading in HL. rewrite EV in *. cbn [bind] in *.
  destruct (HL _ eigh2_ok ltac:(lia) RM Hsym eq_refl) as [WB _]. unfold back. destruct s; [|eauto]. rewrite (npmatmul_total 2 2 _ S _ ltac:(lia) WS WB). eauto.
Qed.
Lemma ex_SIR : forall n X y k h c s, (0 < n)%nat -> wf n 2 X -> length y = n -> (0 < k <= length (distinct y))%nat -> exists B, SIR eigh2 X y k h false c s = Ok B.
Proof.
  intros n X y k h c s Hn W Ly [Hk0 Hk]. unfold SIR. destruct (ex_sliced n X y k c s Hn W Ly Hk) as [S [Z [E [WZ WS]]]]. rewrite E. cbn [bind].
  destruct (Nat.eqb_spec k 0); [lia|]. rewrite (wf_length _ _ _ W).
  eapply ex_back; [apply (rep_sir y (firstn k (distinct y)) Z n 2 WZ Ly (used_in k y)); rewrite firstn_length; lia|exact WS|intros; apply between_sym].
Qed.

Lemma ex_SAVE : forall n X y k h c s, (0 < n)%nat -> wf n 2 X -> length y = n -> (k <= length (distinct y))%nat -> exists B, SAVE eigh2 X y k h false c s = Ok B.
Proof.
  intros n X y k h c s Hn W Ly Hk. unfold SAVE. destruct (ex_sliced n X y k c s Hn W Ly Hk) as [S [Z [E [WZ WS]]]]. rewrite E. cbn [bind].
  rewrite (wf_length _ _ _ W), (wf_ncols n 2 X W Hn).
  eapply ex_back; [apply (rep_save y (firstn k (distinct y)) Z n 2 WZ Ly (used_in k y)); lia|exact WS|intros; apply average_variance_sym].
Qed.
Lemma ex_DR : forall n X y k h c s, (0 < n)%nat -> wf n 2 X -> length y = n -> (0 < k <= length (distinct y))%nat -> exists B, DR eigh2 X y k h false c s = Ok B.
Proof.
  intros n X y k h c s Hn W Ly [Hk0 Hk]. unfold DR. destruct (ex_sliced n X y k c s Hn W Ly Hk) as [S [Z [E [WZ WS]]]]. rewrite E. cbn [bind].
  destruct (Nat.eqb_spec k 0); [lia|]. rewrite (wf_length _ _ _ W), (wf_ncols n 2 X W Hn).
  eapply ex_back; [apply (rep_dr y (firstn k (distinct y)) Z n 2 WZ Ly (used_in k y)); lia|exact WS|intros; apply directional_sym].
Qed.
Lemma ex_start : forall isq ip ols n X y h N2, (0 < n)%nat -> wf n 2 X -> length y = n -> (6 <= length (distinct y))%nat ->
  exists b, start_value (ex_env isq ip ols) (ex_prm MDcov h false false) X y N2 = Ok b.
Proof.
  intros isq ip ols n X y h N2 Hn W Ly H6. unfold start_value, ex_env. cbn [se_eigh se_orth se_dcov ex_prm sp_ncomp sp_scale_data]. cbv zeta.
  destruct (ex_SAVE n X y 3 h false true Hn W Ly ltac:(lia)) as [B1 E1]. destruct (ex_SIR n X y 6 h false true Hn W Ly ltac:(lia)) as [B2 E2]. destruct (ex_DR n X y 6 h false true Hn W Ly ltac:(lia)) as [B3 E3].
  rewrite E1, E2, E3. cbn [bind n2_times].
  assert (HM : forall B k, wf 2 k B -> npmatmul X B = Ok (matmul X B)) by (intros B k WB; apply (npmatmul_total n 2 k); auto).
  destruct (SAVE_ok eigh2 n 2 X eigh2_ok Hn ltac:(lia) W y 3 false Ly _ _ _ _ E1) as [l1 [_ [_ G1]]]. destruct (SIR_ok eigh2 n 2 X eigh2_ok Hn ltac:(lia) W y 6 false Ly _ _ _ _ E2) as [l2 [_ [_ G2]]].
  destruct (DR_ok eigh2 n 2 X eigh2_ok Hn ltac:(lia) W y 6 false Ly _ _ _ _ E3) as [l3 [_ [_ G3]]].
  rewrite (HM _ _ (eigen_basis_wf _ _ _ _ _ _ _ _ G1)), (HM _ _ (eigen_basis_wf _ _ _ _ _ _ _ _ G2)), (HM _ _ (eigen_basis_wf _ _ _ _ _ _ _ _ G3)). cbn [bind]. eauto.
Qed.
(** an optimised fit: the optimiser returns the first unit vector *)
Definition e1_opt (_ : dict) (_ : list R -> res R) (_ : list (list R -> res R)) (_ : list R) : res (list R) := Ok [1; 0].
Lemma ex_fit_dcov_gen : forall isq ip ols n X y mc b d X0 so co ao, (exists N, isq (npcov X) = Ok N) -> (forall M v, exists b, ols M v = Ok b) -> (2 <= n)%nat -> wf n 2 X -> length y = n ->
  (so = None -> (6 <= length (distinct y))%nat) -> (forall f x0, ip d f (match co with Some c => c | None => constraints false X 1 end) x0 = Ok [1; 0]) ->
  exists st' m, sd_fit (ex_env isq ip ols) (mk_ss (ex_prm MDcov 1 false false) X0 so co ao d) X (A1 y) mc b = (st', Ok m) /\ ss_prm st' = ex_prm MDcov 1 false false /\
    (exists x, ss_start st' = Some x) /\ (exists x, ss_cons st' = Some x) /\ (exists x, ss_args st' = Some x).
Proof.
  intros isq ip ols n X y mc b d X0 so co ao Hq Ho Hn W Ly H6 Hip. unfold sd_fit. cbn [ss_prm ex_prm sp_copy sp_ncomp ss_start ss_cons ss_args ss_dict sd_whitening sp_whiten].
  rewrite (wf_length _ _ _ W), (wf_ncols n 2 X W) by lia. rewrite Nat.min_r by lia. cbn [Nat.ltb Nat.leb].
  destruct Hq as [N EN].
  assert (EPr : exists pd, sd_prepare (ex_env isq ip ols) (ex_prm MDcov 1 false false) X = Ok pd /\ pd_Xs pd = X /\ pd_V pd = None).
  { unfold sd_prepare. rewrite (wf_ncols n 2 X W) by lia. cbn [Nat.eqb]. cbv zeta. unfold ex_env at 1. cbn [se_isqrt]. rewrite EN. cbn [bind].
    cbn [ex_prm sp_compress sp_center_data sp_scale_data sp_whiten]. rewrite andb_false_r. cbn [bind]. eexists. split; [reflexivity|]. auto. }
  destruct EPr as [pd [EPr [EX EV]]]. unfold ex_prm in EPr |- *. rewrite EPr. cbn [bind].
  assert (EY : sd_response n (A1 y) = Ok y).
  { unfold sd_response. rewrite map_length, Ly, Nat.eqb_refl. cbn [negb].
    replace (forallb _ _) with true by (symmetry; apply forallb_forall; intros r Hr; apply in_map_iff in Hr as [v [<- _]]; reflexivity). cbn [negb].
    f_equal. unfold col. rewrite map_map. apply map_id. }
  rewrite EY. cbn [bind]. unfold sd_direct. cbn [sp_meth]. rewrite EX. unfold sd_optimise. cbn [ss_start ss_prm ss_cons ss_args ss_dict ss_X0].
  assert (Eb : exists b0, match so with Some b1 => Ok b1 | None => start_value (ex_env isq ip ols) {| sp_meth := MDcov; sp_ncomp := 1; sp_trim := 0; sp_center := CMean; sp_center_data := false; sp_scale_data := false;
    sp_whiten := false; sp_compress := false; sp_slices := 2; sp_copy := true; sp_cont := true; sp_return := true |} X y (pd_N2 pd) end = Ok b0).
  { destruct so as [b1|]; [eauto|]. destruct (ex_start isq ip ols n X y 1 (pd_N2 pd) ltac:(lia) W Ly (H6 eq_refl)) as [b0 Eb]. unfold ex_prm in Eb. eauto. }
  destruct Eb as [b0 Eb]. rewrite Eb. cbv zeta.
  unfold ex_env at 1. cbn [se_ipopt sp_meth sp_ncomp sp_scale_data]. rewrite Hip. cbn [bind].
  assert (EU : unvec 1 [1; 0] = Ok [[1]; [0]]) by reflexivity. rewrite EU. cbn [bind n2_times].
  assert (WP : wf 2 1 [[1]; [0]]) by (split; [reflexivity|repeat constructor]).
  unfold sd_finish, projector. unfold ex_env. cbn [se_inv se_ols].
  rewrite (inv_id_orth 2 1 [[1]; [0]]); [|lia|exact WP|intros i j Hi Hj; assert (i = 0%nat) by lia; assert (j = 0%nat) by lia; subst; unfold sum_to, sum_of, cell, delta; cbn; ring].
  cbn [bind]. rewrite (npmatmul_total n 2 1) by (auto; lia). cbn [bind].
  destruct (Ho (add_constant (matmul X [[1]; [0]])) y) as [bb Ebb]. rewrite Ebb. cbn [bind]. rewrite EV. cbn [bind sp_return sd_is_mean sp_center andb negb]. eexists. eexists. split; [reflexivity|]. cbn. repeat split; eauto.
Qed.

Lemma ex_fit_dcov : forall isq ols n X y mc b d, (forall M, exists N, isq M = Ok N) -> (forall M v, exists b, ols M v = Ok b) -> (2 <= n)%nat -> wf n 2 X -> length y = n -> (6 <= length (distinct y))%nat ->
  exists st' m, sd_fit (ex_env isq e1_opt ols) (ex_st MDcov 1 false false d) X (A1 y) mc b = (st', Ok m).
Proof.
  intros isq ols n X y mc b d Hq Ho Hn W Ly H6. destruct (ex_fit_dcov_gen isq e1_opt ols n X y mc b d None None None None (Hq _) Ho Hn W Ly (fun _ => H6) (fun _ _ => eq_refl)) as [st' [m [E _]]]. eauto.
Qed.
(** an optimised fit followed by two refits *)
Lemma ex_refits : forall isq ols n X y n' X' y' d, (forall M, exists N, isq M = Ok N) -> (forall M v, exists b, ols M v = Ok b) -> (2 <= n)%nat -> wf n 2 X -> length y = n -> (6 <= length (distinct y))%nat ->
  (2 <= n')%nat -> wf n' 2 X' -> length y' = n' ->
  exists st1 m st2 m1 st3 m2, sd_fit (ex_env isq e1_opt ols) (ex_st MDcov 1 false false d) X (A1 y) euclid false = (st1, Ok m) /\
    sd_fit (ex_env isq e1_opt ols) st1 X (A1 y) euclid false = (st2, Ok m1) /\ sd_fit (ex_env isq e1_opt ols) st1 X' (A1 y') euclid false = (st3, Ok m2).
Proof.
  intros isq ols n X y n' X' y' d Hq Ho Hn W Ly H6 Hn' W' Ly'.
  destruct (ex_fit_dcov_gen isq e1_opt ols n X y euclid false d None None None None (Hq _) Ho Hn W Ly (fun _ => H6) (fun _ _ => eq_refl)) as [st1 [m [E [EP [[x1 E1] [[x2 E2] [x3 E3]]]]]]].
  destruct st1 as [prm X0 so co ao d1]. cbn in EP, E1, E2, E3. subst prm so co ao.
  destruct (ex_fit_dcov_gen isq e1_opt ols n X y euclid false d1 X0 (Some x1) (Some x2) (Some x3) (Hq _) Ho Hn W Ly ltac:(discriminate) (fun _ _ => eq_refl)) as [st2 [m1 [F1 _]]].
  destruct (ex_fit_dcov_gen isq e1_opt ols n' X' y' euclid false d1 X0 (Some x1) (Some x2) (Some x3) (Hq _) Ho Hn' W' Ly' ltac:(discriminate) (fun _ _ => eq_refl)) as [st3 [m2 [F2 _]]].
  exists (mk_ss (ex_prm MDcov 1 false false) X0 (Some x1) (Some x2) (Some x3) d1), m, st2, m1, st3, m2. auto.
Qed.

(** data with identity covariance matrix *)
Definition X5 : list (list R) := [[1; 1]; [1; -1]; [-1; 1]; [-1; -1]; [0; 0]].
Lemma X5_wf : wf 5 2 X5. Proof. split; [reflexivity|repeat constructor]. Qed.
Lemma X5_mean : forall j, (j < 2)%nat -> mean_of (column j X5) = 0.
Proof. intros j Hj. destruct (two_cases j Hj) as [->| ->]; unfold mean_of, sum_of, column, X5; cbn; field. Qed.
Lemma X5_cov_entry : forall i j, (i < 2)%nat -> (j < 2)%nat -> cov_of (column i X5) (column j X5) = delta i j.
Proof.
  intros i j Hi Hj. unfold cov_of. rewrite !X5_mean by auto. destruct (two_cases i Hi) as [->| ->], (two_cases j Hj) as [->| ->]; unfold sum_of, column, X5, delta; cbn; field.
Qed.
Lemma delta_sum2 : forall p i j, (i < p)%nat -> sumn p (fun a => sumn p (fun b => delta i a * delta a b * delta b j)) = delta i j.
Proof.
  intros p i j Hi. rewrite (sumn_ext p _ (fun a => if (a =? i)%nat then delta i j else 0)); [apply (sumn_delta p i (fun _ => delta i j)); auto|].
  intros a Ha. rewrite (sumn_ext p _ (fun b => if (b =? a)%nat then delta i a * delta a j else 0)).
  - rewrite (sumn_delta p a (fun _ => delta i a * delta a j)) by auto. unfold delta. rewrite (Nat.eqb_sym i a). destruct (Nat.eqb_spec a i) as [->|]; ring.
  - intros b Hb. unfold delta. rewrite (Nat.eqb_sym a b). destruct (Nat.eqb_spec b a) as [->|]; ring.
Qed.
(** inverse square root, defined on identity matrices only *)
Lemma inv_id_isqrt : isqrt_ok inv_id.
Proof.
  intros p M N Hp [LM FM] SM E. unfold inv_id in E. destruct (mat_eq_dec M (identity (length M))) as [EM|]; [|discriminate]. apply Ok_inj in E. subst N. rewrite LM in EM. rewrite EM.
  destruct (rep_identity p) as [WI HI]. split; [exact WI|]. split; [intros i j Hi Hj; change cell with (mget (A := R)); rewrite !HI by auto; unfold delta; rewrite Nat.eqb_sym; reflexivity|].
  intros i j Hi Hj. change sum_to with sumn. change cell with (mget (A := R)). rewrite <- (delta_sum2 p i j Hi). apply sumn_ext. intros a Ha. apply sumn_ext. intros b Hb. rewrite !HI by auto. reflexivity.
Qed.
Section Std.
  Variable X : list (list R).
  Hypothesis W : wf 5 2 X.
  Hypothesis X_mean : forall j, (j < 2)%nat -> mean_of (column j X) = 0.
  Hypothesis X_cov_entry : forall i j, (i < 2)%nat -> (j < 2)%nat -> cov_of (column i X) (column j X) = delta i j.
Lemma X_cov : npcov X = identity 2.
Proof. apply (rep_eq 2 2 _ _ _ _ (rep_cov 5 2 X ltac:(lia) W) (rep_identity 2)). apply X_cov_entry. Qed.
Lemma X_posdef : positive_definite 2 (covariance_matrix 2 X).
Proof.
  intros v Lv Hv. unfold quad_form. change sum_to with sumn.
  rewrite (sumn_ext 2 _ (fun i => sumn 2 (fun j => nth i v 0 * delta i j * nth j v 0))).
  2: { intros i Hi. apply sumn_ext. intros j Hj. unfold covariance_matrix. change cell with (mget (A := R)). rewrite (proj2 (rep_table 2 2 (fun i j => cov_of (column i X) (column j X)))) by auto. rewrite X_cov_entry by auto. reflexivity. }
  rewrite (sum_delta2 2 (fun k => nth k v 0) (fun k => nth k v 0)). destruct v as [|a [|b [|? ?]]]; try discriminate. unfold sqlen, inner, sum_of in Hv. cbn in Hv.
  unfold sumn. cbn. assert (a * a + b * b <> 0) by lra. pose proof (Rle_0_sqr a). pose proof (Rle_0_sqr b). unfold Rsqr in *. lra.
Qed.
(** a scaled fit by principal Hessian directions *)
Lemma ex_fit_std : forall ip ols y h mc b d, (forall B, wf 2 h B -> orthonormal_columns 2 h B -> exists b, ols (add_constant (matmul X B)) y = Ok b) -> length y = 5%nat -> (1 <= h <= 2)%nat ->
  exists st' m, sd_fit (ex_env inv_id ip ols) (ex_st MPhd h true true d) X (A1 y) mc b = (st', Ok m).
Proof.
  intros ip ols y h mc b d Ho Ly Hh. pose proof (wf_length _ _ _ W) as LX. unfold sd_fit, ex_st. cbn [ss_prm ex_prm sp_copy sp_ncomp ss_start ss_cons ss_args ss_dict sd_whitening sp_whiten].
  rewrite LX, (wf_ncols 5 2 X W) by lia. change (Nat.min 5 2) with 2%nat. destruct (2 <? h)%nat eqn:E2; [apply Nat.ltb_lt in E2; lia|].
  assert (EM : minus_mean X = X).
  { apply (rep_eq 5 2 _ _ _ _ (rep_minus_mean 5 2 X ltac:(lia) W) (rep_self _ _ _ W)). intros i j Hi Hj. rewrite X_mean by auto. ring. }
  assert (EI : npmatmul X (identity 2) = Ok X).
  { rewrite (npmatmul_total 5 2 2) by (auto; try lia; apply rep_identity). f_equal. apply (rep_eq 5 2 _ _ _ _ (rep_matmul 5 2 2 _ _ _ _ ltac:(lia) (rep_self _ _ _ W) (rep_identity 2)) (rep_self _ _ _ W)).
    intros i j Hi Hj. rewrite (sumn_ext 2 _ (fun a => if (a =? j)%nat then mget X i a else 0)); [apply (sumn_delta 2 j (mget X i)); auto|]. intros a Ha. unfold delta. destruct (a =? j)%nat; ring. }
  assert (EPr : exists pd, sd_prepare (ex_env inv_id ip ols) (ex_prm MPhd h true true) X = Ok pd /\ pd_Xs pd = X /\ pd_V pd = None /\ pd_N2 pd = identity 2).
  { unfold sd_prepare. rewrite (wf_ncols 5 2 X W) by lia. cbn [Nat.eqb]. cbv zeta. unfold ex_env at 1. cbn [se_isqrt]. rewrite X_cov.
    unfold inv_id. destruct (mat_eq_dec (identity 2) (identity (length (identity 2)))) as [_|NE]; [|exfalso; apply NE; reflexivity]. cbn [bind].
    cbn [ex_prm sp_compress sp_center_data sp_scale_data sp_whiten sp_center sp_trim sd_is_mean]. rewrite andb_false_r. cbn [bind].
    assert (ET : mapM (trim_mean1 0) (cols X) = Ok (map vmean (cols X))) by (apply (mapM_trim0 5 2); [lia|exact W]). rewrite ET. cbn [bind].
    change (map (fun r => vsub r (map vmean (cols X))) X) with (minus_mean X). rewrite EM, EI. cbn [bind]. eexists. split; [reflexivity|]. auto. }
  destruct EPr as [pd [EPr [EX [EV EN]]]]. unfold ex_prm in EPr |- *. rewrite EPr. cbn [bind].
  assert (EY : sd_response 5 (A1 y) = Ok y).
  { unfold sd_response. rewrite map_length, Ly. cbn [Nat.eqb negb].
    replace (forallb _ _) with true by (symmetry; apply forallb_forall; intros r Hr; apply in_map_iff in Hr as [v [<- _]]; reflexivity). cbn [negb].
    f_equal. unfold col. rewrite map_map. apply map_id. }
  rewrite EY. cbn [bind]. unfold sd_direct. cbn [sp_meth sp_ncomp sp_center_data sp_scale_data]. cbv zeta. rewrite EX, EN. unfold ex_env at 1 2. cbn [se_eigh].
  assert (EP : exists B, PHD eigh2 X y h true true = Ok B).
  { unfold PHD, standardised. destruct (ex_signsqrt 5 X ltac:(lia) W) as [S ES]. rewrite ES. cbn [bind]. pose proof (proj1 (signsqrt_spec eigh2 5 2 X S eigh2_ok ltac:(lia) ltac:(lia) W ES)) as WS.
    rewrite EM, (npmatmul_total 5 2 2) by (auto; lia). cbn [bind]. rewrite Ly, LX. cbn [Nat.eqb negb].
    eapply ex_back; [apply (rep_phd 5 2); auto; try lia; apply (rep_matmul 5 2 2 _ _ _ _ ltac:(lia) (rep_self _ _ _ W) (rep_self _ _ _ WS))|exact WS|intros; apply response_weighted_sym]. }
  destruct EP as [B EB]. rewrite EB. cbn [bind n2_times].
  pose proof (PHD_ok eigh2 5 2 X eigh2_ok ltac:(lia) ltac:(lia) W y Ly _ _ _ _ EB) as (S & Z & V & WS & SS & HSt & _ & HV & WB & HB). rewrite Nat.min_l in * by lia.
  destruct (HSt X_posdef) as [_ [_ HSS]]. destruct HV as [WV [OV _]].
  assert (OB : orthonormal_columns 2 h B).
  { assert (SS' : forall a b, (a < 2)%nat -> (b < 2)%nat -> mget (A := R) S a b = mget S b a) by exact SS.
    intros i j Hi Hj. change sum_to with sumn. change cell with (mget (A := R)). rewrite <- sum_delta2. transitivity (sumn 2 (fun k => mget V k i * mget V k j)); [|apply (OV i j Hi Hj)]. rewrite <- sum_delta2.
    rewrite <- (sandwich 2 h (mget S) delta delta (mget V)); auto.
    - apply sumn_ext. intros a Ha. apply sumn_ext. intros c Hc. change (mget B) with (cell B). rewrite !HB by auto. reflexivity.
    - intros k l Hk Hl. rewrite <- (HSS k l Hk Hl). change sum_to with sumn. change cell with (mget (A := R)). apply sumn_ext. intros a Ha. apply sumn_ext. intros c Hc.
      f_equal. f_equal. symmetry. transitivity (cov_of (column a X) (column c X)); [|apply X_cov_entry; auto].
      apply (proj2 (rep_table 2 2 (fun i j => cov_of (column i X) (column j X)))); auto. }
  assert (EIB : npmatmul (identity 2) B = Ok B).
  { rewrite (npmatmul_total 2 2 h) by (auto; try lia; apply rep_identity). f_equal. apply (rep_eq 2 h _ _ _ _ (rep_matmul 2 2 h _ _ _ _ ltac:(lia) (rep_identity 2) (rep_self _ _ _ WB)) (rep_self _ _ _ WB)).
    intros i j Hi Hj. rewrite (sumn_ext 2 _ (fun a => if (a =? i)%nat then mget B a j else 0)); [apply (sumn_delta 2 i (fun a => mget B a j)); auto|]. intros a Ha. unfold delta. rewrite (Nat.eqb_sym i a). destruct (a =? i)%nat; ring. }
  rewrite EIB. cbn [bind]. unfold sd_finish, projector. unfold ex_env. cbn [se_inv se_ols].
  rewrite (inv_id_orth 2 h B) by (auto; lia). cbn [bind]. rewrite (npmatmul_total 5 2 h) by (auto; lia). cbn [bind]. cbv zeta.
  destruct (Ho B WB OB) as [bb Eb]. rewrite Eb. cbn [bind]. rewrite EV. cbn [bind sp_return sd_is_mean sp_center andb negb]. eauto.
Qed.
End Std.
Lemma X5_cov : npcov X5 = identity 2. Proof. exact (X_cov X5 X5_wf X5_cov_entry). Qed.
Lemma X5_isqrt : exists N, inv_id (npcov X5) = Ok N.
Proof. rewrite X5_cov. unfold inv_id. destruct (mat_eq_dec _ _) as [|NE]; [eauto|]. exfalso. apply NE. reflexivity. Qed.
Lemma ex_fit_scaled : forall ip ols y h mc b d, (forall M v, exists b, ols M v = Ok b) -> length y = 5%nat -> (1 <= h <= 2)%nat ->
  exists st' m, sd_fit (ex_env inv_id ip ols) (ex_st MPhd h true true d) X5 (A1 y) mc b = (st', Ok m).
Proof. intros ip ols y h mc b d Ho. apply (ex_fit_std X5 X5_wf X5_mean X5_cov_entry). auto. Qed.
(** a feasible optimiser for the unit vector *)
Definition e1_feasible (_ : dict) (_ : list R -> res R) (cons : list (list R -> res R)) (_ : list R) : res (list R) :=
  if forallb (fun c : list R -> res R => match c [1; 0] with Ok v => if Req_EM_T v 0 then true else false | Err _ => false end) cons then Ok [1; 0] else Err ValueError.
Lemma e1_feasible_ok : feasible e1_feasible.
Proof.
  intros d f cons x0 x E c Hc. unfold e1_feasible in E. destruct (forallb _ cons) eqn:EF; [|discriminate]. apply Ok_inj in E. subst x. rewrite forallb_forall in EF. specialize (EF c Hc). cbv beta in EF.
  destruct (c [1; 0]) as [v|]; [|discriminate]. destruct (Req_EM_T v 0); [subst; auto|discriminate].
Qed.
Lemma ex_fit_feasible : forall ols y d, (forall M v, exists b, ols M v = Ok b) -> length y = 5%nat ->
  exists st' m, sd_fit (ex_env inv_id e1_feasible ols) (mk_ss (ex_prm MDcov 1 false false) None (Some [1; 0]) None None d) X5 (A1 y) euclid false = (st', Ok m).
Proof.
  intros ols y d Ho Ly. destruct (ex_fit_dcov_gen inv_id e1_feasible ols 5 X5 y euclid false d None (Some [1; 0]) None None X5_isqrt Ho ltac:(lia) X5_wf Ly ltac:(discriminate)) as [st' [m [E _]]]; [|eauto].
  intros f x0. unfold e1_feasible. replace (forallb _ _) with true; [reflexivity|]. symmetry. apply forallb_forall. intros c Hc. unfold constraints in Hc. cbn [seq map concat app In] in Hc. destruct Hc as [<-|[]]. cbv beta iota.
  assert (WB : wf 2 1 [[1]; [0]]) by (split; [reflexivity|repeat constructor]).
  replace (const_xscale [1; 0] X5 1 0 0) with (const_xscale (flatF [[1]; [0]]) X5 1 0 0) by reflexivity. rewrite (const_xscale_ok 5 2 1 X5 [[1]; [0]] 0 0) by (auto; try lia; apply X5_wf).
  match goal with |- (if Req_EM_T ?v 0 then true else false) = true => destruct (Req_EM_T v 0) as [|N]; [reflexivity|exfalso; apply N] end.
  unfold sumn. cbn [seq map]. rewrite !X5_cov_entry by lia. unfold delta, mget. cbn. ring.
Qed.
