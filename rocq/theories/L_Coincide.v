(** Coinciding cases in rm (C201). *)
From Coq Require Import Reals List Arith ZArith Bool Lia Lra.
Import ListNotations.
From Verif Require Import Num Err Vec VecR OrdR L_Mat S_Utils S_Stats S_Weights M_Utils M_Preproc M_Robcent M_Msupport M_Rm S_Rm L_Scaling L_Scaling2 L_Snipls L_Missing L_Rm L_Rm2 L_Msupport S_MissReg L_MissReg S_Exact L_Exact S_Coincide.
Open Scope R_scope.

Definition nrm (r : list R) : R := sqrt (vsum (map (fun x => x * x) r)).
Lemma sq_nonneg : forall r, 0 <= vsum (map (fun x => x * x) r).
Proof.
  induction r as [|x r IH]; [cbn; lra|]. cbn [map vsum fold_right]. change (fold_right nadd n0) with (@vsum R _). pose proof (Rle_0_sqr x) as H. unfold Rsqr in H. rnum. lra.
Qed.
Lemma norm_fin : forall r, nsqrt (vsum (map nsqr (finite_vec r))) = Fin (nrm r).
Proof.
  intros r. replace (map nsqr (finite_vec r)) with (map Fin (map (fun x => x * x) r)) by (unfold finite_vec; rewrite !map_map; reflexivity). rewrite vsum_XR. cbn [nsqrt Num_XR XRsqrt]. destruct (Rlt_dec _ 0); [pose proof (sq_nonneg r); lra|reflexivity].
Qed.
Lemma zero_norm : forall r, zero_row r = true -> nrm r = 0.
Proof.
  intros r H. unfold nrm. replace (vsum (map (fun x => x * x) r)) with 0; [apply sqrt_0|]. induction r as [|x r IH]; [reflexivity|]. cbn [zero_row forallb] in H. apply andb_prop in H as [H1 H2]. cbn [map vsum fold_right]. destruct (Req_EM_T x 0) as [->|]; [|discriminate].
  change (fold_right nadd n0) with (@vsum R _). rewrite <- (IH H2). rnum. ring.
Qed.
Lemma median_zero : forall Xr, (length Xr < 2 * length (zero_rows Xr))%nat -> vmedian (map nrm Xr) = 0.
Proof.
  intros Xr H. assert (0 <= vmedian (map nrm Xr) <= 0); [|lra]. apply vmedian_majority. rewrite map_length.
  enough (E : (length (zero_rows Xr) <= count_in 0 0 (map nrm Xr))%nat) by lia.
  clear H. unfold zero_rows, count_in. induction Xr as [|r Xr IH]; [cbn; lia|]. cbn [map filter]. destruct (zero_row r) eqn:E.
  - rewrite (zero_norm r E). replace (Rleb 0 0 && Rleb 0 0) with true; [cbn [length]; lia|]. symmetry. apply andb_true_intro. split; apply Rleb_true; lra.
  - destruct (_ && _); cbn [length]; lia.
Qed.
Lemma dx_missing : forall Xr i, (length Xr < 2 * length (zero_rows Xr))%nat -> (i < length Xr)%nat -> zero_row (nth i Xr []) = true -> nth_error (start_dx (finite_mat Xr)) i = Some NaN.
Proof.
  intros Xr i H Hi Hz. unfold start_dx. replace (map (fun r => nsqrt (vsum (map nsqr r))) (finite_mat Xr)) with (map Fin (map nrm Xr)).
  2: { unfold finite_mat. rewrite !map_map. apply map_ext. intros r. symmetry. apply norm_fin. }
  assert (E : np_median (map Fin (map nrm Xr)) = Fin 0).
  { unfold np_median. replace (vanynan (map Fin (map nrm Xr))) with false.
    - rewrite vmedian_XR, median_zero; auto. intros E. apply map_eq_nil in E. subst Xr. cbn in Hi. lia.
    - symmetry. unfold vanynan. clear. induction (map nrm Xr) as [|a l IH]; [reflexivity|]. cbn [map existsb]. rewrite isnan_Fin. exact IH. }
  rewrite E, !map_map. erewrite map_nth_error; [|apply (nth_error_nth' _ [] Hi)]. f_equal. rewrite (zero_norm _ Hz). exact nan0.
Qed.

Lemma upd_nan : forall mask g (x : list XR) i, mask NaN = false -> nth_error x i = Some NaN -> nth_error (upd mask g x) i = Some NaN.
Proof. intros mask g x i H E. unfold upd. rewrite (map_nth_error _ _ _ E), H. reflexivity. Qed.
Lemma weight_nan : forall f (c b r : XR) x i, nth_error x i = Some NaN -> nth_error (mweights f c b r x) i = Some NaN.
Proof.
  intros f c b r x i E. destruct f; cbn [mweights].
  - unfold Fair. rewrite (map_nth_error _ _ _ E). reflexivity.
  - unfold Huber. repeat (apply upd_nan; [xnum; rewrite ?leb_NaN_l, ?ltb_NaN_r; reflexivity|]). exact E.
  - unfold Hampel. repeat (apply upd_nan; [xnum; rewrite ?leb_NaN_l, ?ltb_NaN_r; reflexivity|]). exact E.
Qed.
Lemma mul_nan : forall (u v : list XR) i, length u = length v -> nth_error u i = Some NaN -> nth_error (vmul u v) i = Some NaN.
Proof.
  unfold vmul. induction u as [|a u IH]; intros [|b v] [|i] Hl E; try discriminate; cbn in *.
  - injection E as ->. reflexivity. - apply IH; auto.
Qed.
Lemma where_nan : forall (x : list XR) i k, nth_error x i = Some NaN -> ~ In (k + i)%nat (where_from (fun v => nltb v wmin) k x).
Proof.
  assert (G : forall (g : XR -> bool) x j k, In j (where_from g k x) -> (k <= j)%nat).
  { intros g. induction x as [|a x IH]; intros j k H; [destruct H|]. cbn in H. destruct (g a); [destruct H as [<-|H]; [lia|]|]; apply IH in H; lia. }
  induction x as [|a x IH]; intros [|i] k E H; try discriminate; cbn [nth_error where_from] in *.
  - injection E as ->. cbn in H. apply G in H. lia.
  - replace (k + S i)%nat with (S k + i)%nat in H by lia. destruct (nltb a wmin); [destruct H as [H|H]; [lia|]|]; apply IH in H; auto.
Qed.
Lemma set_nan : forall (x : list XR) idx v i, ~ In i idx -> nth_error x i = Some NaN -> nth_error (set_idx idx v x) i = Some NaN.
Proof.
  intros x idx v i Hn E. unfold set_idx.
  assert (EC : forall (x : list XR) i k, nth_error x i = Some NaN -> nth_error (combine (seq k (length x)) x) i = Some ((k + i)%nat, NaN)).
  { clear. induction x as [|a x IH]; intros [|i] k E; try discriminate; cbn [length seq combine nth_error] in *; [injection E as ->; rewrite Nat.add_0_r; reflexivity|]. rewrite (IH i (S k) E). rewrite <- plus_n_Sm. reflexivity. }
  rewrite (map_nth_error _ _ _ (EC x i 0%nat E)). cbn [fst snd Nat.add]. destruct (existsb (Nat.eqb i) idx) eqn:EB; [|reflexivity]. apply existsb_exists in EB as (j & Hj & Ej). apply Nat.eqb_eq in Ej. subst j. contradiction.
Qed.
Lemma floor_nan : forall (x : list XR) i, nth_error x i = Some NaN -> nth_error (floor_w x) i = Some NaN.
Proof. intros x i E. unfold floor_w, low, where_. apply set_nan; [|exact E]. apply (where_nan x i 0 E). Qed.
Lemma row_scale_nan : forall (u : list XR) X i r, nth_error u i = Some NaN -> nth_error X i = Some r -> nth_error (row_scale u X) i = Some (map (fun _ => NaN) r).
Proof.
  unfold row_scale. induction u as [|a u IH]; intros [|r0 X] [|i] r E1 E2; try discriminate; cbn in *; [|apply IH; auto].
  injection E1 as ->. injection E2 as ->. reflexivity.
Qed.

Lemma valid_check : forall P : rm_par XR, valid_params P -> exists f, rm_check P = Ok f.
Proof.
  intros P (f & q1 & q2 & q3 & E & E1 & E2 & E3 & H1 & H2). exists f. unfold rm_check. rewrite E, E1, E2, E3. xnum. rewrite !XRleb_Fin. cbn [XRltb].
  replace (Rltb 1 q1) with false by (symmetry; apply Rltb_false; lra). replace (Rleb q1 0) with false by (symmetry; apply Rleb_false; lra). cbn [orb].
  destruct f; auto. destruct (H2 eq_refl) as (A & B & C). rewrite (proj2 (Rltb_true q1 q2) A), (proj2 (Rltb_true q2 q3) B), (proj2 (Rleb_true q3 1) C). reflexivity.
Qed.
Lemma coincide_l : forall (env : rm_env XR) P p X y Xr yr tol, (2 <= length y)%nat -> (1 <= p)%nat -> Forall (fun r => length r = p) Xr -> length y = length X ->
  xscaled (re_prep env) (r_centre P) (r_scale P) X (finite_mat Xr) -> xscaled (re_prep env) (r_centre P) (r_scale P) (map (fun v => [v]) y) (map (fun v => [v]) yr) ->
  (length Xr < 2 * length (zero_rows Xr))%nat -> r_tol P = Fin tol -> tol < 1 -> (2 <= r_maxit P)%nat -> rejects_missing (re_lstsq env) -> valid_params P ->
  exists Xw yw, rm_run env P X y = ([(Xw, yw)], Err LinAlgError) /\ row_missing Xw.
Proof.
  intros env P p X y Xr yr tol Hn Hp Hrows Hl [sx EX] [sy0 EY] Hz Htol Ht Hm Hrej HV. destruct (valid_check P HV) as [f Ec].
  assert (LX : length Xr = length X).
  { pose proof (fit_transform_rows _ _ _ _ _ EX) as L. unfold check_input in L. destruct (Nat.eqb_spec (length X) 1); [lia|]. cbn [andb] in L. unfold finite_mat in L. rewrite map_length in L. exact L. }
  assert (Hi : exists i, (i < length Xr)%nat /\ zero_row (nth i Xr []) = true).
  { assert (HI : exists r, In r (zero_rows Xr)) by (destruct (zero_rows Xr) as [|r l]; [cbn in Hz; lia|exists r; left; auto]). destruct HI as [r Hr]. apply filter_In in Hr as [Hr1 Hr2]. apply (In_nth _ _ []) in Hr1 as (i & Hi & E). exists i. rewrite E. auto. }
  destruct Hi as (i & Hi & Hzi). pose proof (dx_missing Xr i Hz Hi Hzi) as HD.
  destruct (ft_same (re_prep env) (new_scaler (r_centre P) (r_scale P) (Fin 0)) sx sy0 (A2 (map (fun v => [v]) y)) (A1 y) (map (fun v => [v]) yr)) as [s2 E2]; auto.
  { apply ft_inv in EX as (? & ? & _ & _ & _ & _ & _ & _ & _ & H & _). auto. }
  { apply ft_inv in EX as (? & ? & _ & _ & _ & _ & _ & _ & _ & _ & H & _). auto. }
  { apply ft_inv in EX as (? & ? & _ & _ & _ & _ & _ & _ & _ & _ & _ & H). auto. }
  { destruct y as [|v1 [|v2 y']]; cbn in Hn; try lia. reflexivity. }
  assert (Lys : length yr = length y).
  { pose proof (fit_transform_rows _ _ _ _ _ EY) as L. destruct y as [|v1 [|v2 y']]; cbn in Hn; try lia. cbn in L. rewrite !map_length in L. exact L. }
  unfold rm_run. rewrite Ec. destruct (Nat.eqb_spec (length y) (length X)); [|lia]. cbn [negb]. destruct (Nat.eqb_spec (length X) 1); [lia|]. cbn [andb].
  change (@n0 XR _) with (Fin 0). rewrite EX, E2.
  apply ft_inv in EX as (mX & sX & _ & _ & _ & _ & _ & A1 & A2 & _). apply ft_inv in E2 as (my & sy & _ & _ & _ & _ & _ & A3 & A4 & _). rewrite A1, A2, A3, A4. cbv zeta.
  set (wx := mweights f _ _ _ (start_dx _)). set (wy := mweights f _ _ _ (start_dy _ _ _)).
  assert (Lw : length wx = length wy).
  { unfold wx, wy. rewrite !mweights_length. unfold start_dx, start_dy, finite_mat. rewrite !map_length. destruct (r_centre P), (r_scale P); unfold col; rewrite ?map_length; lia. }
  assert (HF : nth_error (map nsqrt (floor_w (vmul wx wy))) i = Some NaN).
  { rewrite (map_nth_error _ _ _ (floor_nan _ _ (mul_nan _ _ _ Lw (weight_nan f _ _ _ _ _ HD)))). reflexivity. }
  cbn [rm_loop l_diff l_loops l_sw]. rewrite Htol. change (nltb (Fin tol) n1) with (Rltb tol 1). replace (Rltb tol 1) with true by (symmetry; apply Rltb_true; exact Ht).
  destruct (Nat.ltb_spec 1 (r_maxit P)); [|lia]. cbn [andb].
  assert (HR : nth_error (finite_mat Xr) i = Some (finite_vec (nth i Xr []))) by (apply map_nth_error, nth_error_nth', Hi).
  pose proof (row_scale_nan _ _ _ _ HF HR) as HW. apply nth_error_In in HW.
  assert (HL : length (nth i Xr []) = p) by (rewrite Forall_forall in Hrows; apply Hrows, nth_In, Hi).
  assert (HNn : In NaN (map (fun _ : XR => NaN) (finite_vec (nth i Xr [])))) by (destruct (nth i Xr []); [cbn in HL; lia|left; reflexivity]).
  rewrite (Hrej _ _ _ HW HNn). do 2 eexists. split; [reflexivity|]. eexists. split; [exact HW|]. split; [intros E0; rewrite E0 in HNn; destruct HNn|]. apply Forall_map, Forall_forall. auto.
Qed.
