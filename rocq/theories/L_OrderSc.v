(** Order of the cases: location, scale and VersatileScaler. *)

From Coq Require Import Reals List Arith ZArith Bool Lia Lra Permutation.
Import ListNotations.
From Verif Require Import Num Err Vec VecR OrdR L_Mat L_Lin L_Matmul S_Stats L_Stats S_Order L_Order M_Utils M_Preproc M_Robcent
  L_Scaling L_Scaling2 L_Preproc L_Snipls.
Open Scope R_scope.

Lemma filter_permutation : forall {T} (f : T -> bool) l l', Permutation l l' -> Permutation (filter f l) (filter f l').
Proof.
  intros T f l l' HP. induction HP; cbn [filter]; auto.
  - destruct (f x); auto.
  - destruct (f x), (f y); auto. apply perm_swap.
  - etransitivity; eauto.
Qed.
Lemma l1median_perm : forall env n p (X Y : list (list R)), l1opt_order_free env -> wf n p X -> (0 < n)%nat -> Permutation X Y ->
  l1median (env_l1opt env) X = l1median (env_l1opt env) Y.
Proof.
  intros env n p X Y He HX Hn HP. assert (HY : wf n p Y) by (apply (wf_perm n p X); auto).
  unfold l1median. rewrite (wf_ncols n p X), (wf_ncols n p Y) by auto. rewrite <- (median_perm n p X Y) by auto. destruct (p <? 2)%nat; auto.
Qed.
Lemma lts_step_perm : forall n p (X Y : list (list R)) m, wf n p X -> (0 < n)%nat -> Permutation X Y -> lts_step X m = lts_step Y m.
Proof.
  intros n p X Y m HX Hn HP. unfold lts_step. rewrite !manynan_R, !lts_subset_R.
  assert (EC : lts_cut X m = lts_cut Y m).
  { unfold lts_cut. rewrite (Permutation_length HP). f_equal. apply sort_permutation, Permutation_map, HP. }
  rewrite <- EC. apply (cols_perm_map vmean (length (filter (fun r => Rleb (sqdist r m) (lts_cut X m)) X)) p).
  - eapply wf_filter; eauto.
  - assert (HL : (1 <= length X)%nat) by (rewrite (wf_length n p X HX); lia). pose proof (lts_subset_size X m HL) as H. rewrite lts_subset_R in H.
    pose proof (half_up_pos _ HL). lia.
  - apply filter_permutation, HP.
  - apply vmean_perm.
Qed.
Lemma kstepLTS_perm : forall env k tol n p (X Y : list (list R)), l1opt_order_free env -> wf n p X -> (0 < n)%nat -> Permutation X Y ->
  kstepLTS (env_l1opt env) k tol X = kstepLTS (env_l1opt env) k tol Y.
Proof.
  intros env k tol n p X Y He HX Hn HP. unfold kstepLTS. rewrite <- (l1median_perm env n p X Y) by auto. f_equal. generalize (l1median (env_l1opt env) X).
  induction k as [|k IH]; intros m; auto. cbn [lts_loop]. rewrite <- (lts_step_perm n p X Y) by auto. rewrite IH. reflexivity.
Qed.
Lemma map2_self : forall {T U V} (f : T -> U -> V) (g : T -> U) l, map2 f l (map g l) = map (fun x => f x (g x)) l.
Proof. intros T U V f g l; induction l as [|x l IH]; cbn; auto. rewrite IH. reflexivity. Qed.
Lemma msum_perm : forall X Y : list (list R), Permutation X Y -> msum X = msum Y.
Proof. intros. unfold msum. apply vsum_perm, Permutation_map. auto. Qed.
Lemma scaleTau2_perm : forall es2 c1 c2 b f n p (X Y : list (list R)), wf n p X -> (0 < n)%nat -> Permutation X Y ->
  scaleTau2 es2 c1 c2 b f X = scaleTau2 es2 c1 c2 b f Y.
Proof.
  intros es2 c1 c2 b f n p X Y HX Hn HP. unfold scaleTau2. cbv zeta. rewrite !manynan_R. rewrite <- (Permutation_length HP).
  rewrite <- (median_perm n p X Y) by auto.
  assert (Wc : wf n p (map (map nabs) (rows_op nsub X (median X)))).
  { apply wf_mapmap, wf_map2_rows; auto. rewrite median_length. apply (wf_ncols n p); auto. }
  rewrite <- (median_perm n p (map (map nabs) (rows_op nsub X (median X))) (map (map nabs) (rows_op nsub Y (median X)))) by (auto; apply Permutation_map, rows_op_perm, HP).
  set (s0 := median (map (map nabs) (rows_op nsub X (median X)))). set (m := median X).
  apply map_ext. intros v. f_equal. f_equal. f_equal.
  unfold rows_op. rewrite !map_map.
  match goal with |- context [map2 vmul X (map ?g X)] => set (W := g) end.
  change (map2 vmul Y _) with (map2 vmul Y (map W Y)). rewrite !map2_self.
  rewrite <- (msum_perm (map (fun x => vmul x (W x)) X) (map (fun x => vmul x (W x)) Y)) by (apply Permutation_map, HP).
  rewrite <- (msum_perm (map W X) (map W Y)) by (apply Permutation_map, HP).
  apply msum_perm. destruct (nltb n0 c1); rewrite !map_map; apply Permutation_map, HP.
Qed.
Lemma location_perm : forall env c t n p (X Y : list (list R)), documented_centre c -> l1opt_order_free env -> wf n p X -> (0 < n)%nat -> Permutation X Y ->
  location env c t X = location env c t Y.
Proof.
  intros env c t n p X Y Hc He HX Hn HP. assert (HY : wf n p Y) by (apply (wf_perm n p X); auto).
  destruct Hc as [->|[->|[->|[->| ->]]]]; cbn [location].
  - apply (mean_perm n p); auto.
  - f_equal; apply (median_perm n p); auto.
  - f_equal; apply (l1median_perm env n p); auto.
  - f_equal; apply (kstepLTS_perm env _ _ n p); auto.
  - rewrite (wf_ncols n p X), (wf_ncols n p Y); auto.
Qed.
Lemma scale_est_perm : forall env s t n p (X Y : list (list R)), documented_scale s -> wf n p X -> (0 < n)%nat -> Permutation X Y ->
  scale_est env s t X = scale_est env s t Y.
Proof.
  intros env s t n p X Y Hs HX Hn HP. assert (HY : wf n p Y) by (apply (wf_perm n p X); auto).
  destruct Hs as [->|[->|[->| ->]]]; cbn [scale_est].
  - apply (std_perm n p); auto.
  - f_equal; apply (mad_perm n p); auto.
  - f_equal; apply (scaleTau2_perm _ _ _ _ _ n p); auto.
  - rewrite (wf_ncols n p X), (wf_ncols n p Y); auto.
Qed.

Lemma reorder_scale_data : forall n p o (X : list (list R)) m s, case_order n o -> wf n p X -> (0 < n)%nat ->
  scale_data (reorder o X) m s = match scale_data X m s with Ok Z => Ok (reorder o Z) | Err e => Err e end.
Proof.
  intros n p o X m s Ho HX Hn. assert (WO : wf n p (reorder o X)) by (apply reorder_wf; auto). unfold scale_data. rewrite (wf_ncols n p X), (wf_ncols n p (reorder o X)) by auto.
  destruct (p =? 1)%nat.
  - destruct m as [|m0 m]; [reflexivity|]. destruct (handle_zeros s); [reflexivity|]. rewrite <- reorder_map. reflexivity.
  - destruct (length m =? p)%nat.
    + cbn [bind]. destruct (length (handle_zeros s) =? p)%nat; [unfold rows_op; rewrite <- !reorder_map; reflexivity|].
      destruct (handle_zeros s) as [|s0 [|]]; try reflexivity. unfold rows_op; rewrite <- !reorder_map; reflexivity.
    + destruct m as [|m0 [|]]; try reflexivity. cbn [bind]. destruct (length (handle_zeros s) =? p)%nat; [unfold rows_op; rewrite <- !reorder_map; reflexivity|].
      destruct (handle_zeros s) as [|s0 [|]]; try reflexivity. rewrite <- !reorder_map; reflexivity.
Qed.

(** fit_transform in one expression *)
Definition ft (env : prep_env R) (c : centre_opt R) (s : scale_opt R) (X : list (list R)) : res (list R * list R * list (list R)) :=
  if is_bad c s then Err NameError
  else bind (location env c 0 X) (fun m => bind (scale_est env s 0 X) (fun v => bind (scale_data X m v) (fun Z => Ok (m, v, Z)))).
Definition ft_data (r : res (list R * list R * list (list R))) : res (list (list R)) :=
  match r with Ok (_, _, Z) => Ok Z | Err e => Err e end.
Lemma sc_fit_transform_ft : forall env st x, sc_trimming st = 0 ->
  snd (sc_fit_transform env st x) = ft_data (ft env (sc_center st) (sc_scale st) (check_input x)) /\
  match ft env (sc_center st) (sc_scale st) (check_input x) with
  | Err _ => True
  | Ok (m, v, Z) => let st' := fst (sc_fit_transform env st x) in
      a_col_loc st' = Some m /\ a_col_sca st' = Some v /\ sc_center st' = sc_center st /\ sc_scale st' = sc_scale st /\ sc_trimming st' = 0
  end.
Proof.
  intros env st x Ht. unfold ft, sc_fit_transform, sc_fit. rewrite Ht.
  assert (EC : check_trimming 0 = Ok tt).
  { unfold check_trimming. rnum. unfold Rltb. destruct (Rlt_dec 0 0); [lra|]. destruct (Rlt_dec (99 / 100) 0); [lra|]. reflexivity. }
  rewrite EC. destruct (is_bad (sc_center st) (sc_scale st)); [split; [reflexivity|exact I]|].
  destruct (location env (sc_center st) 0 (check_input x)) as [m|e]; [|split; [reflexivity|exact I]]. cbn [bind].
  destruct (scale_est env (sc_scale st) 0 (check_input x)) as [v|e]; [|split; [reflexivity|exact I]]. cbn [bind].
  unfold sc_transform. cbn [a_center a_scale]. destruct (scale_data (check_input x) m v) as [Z|e]; [|split; [reflexivity|exact I]]. cbn. repeat split; auto.
Qed.
Lemma ft_wf : forall env c s n p X m v Z, wf n p X -> (0 < n)%nat -> ft env c s X = Ok (m, v, Z) -> wf n p Z.
Proof.
  intros env c s n p X m v Z HX Hn E. unfold ft in E. destruct (is_bad c s); [discriminate|].
  destruct (location env c 0 X) as [m1|]; [|discriminate]. cbn [bind] in E. destruct (scale_est env s 0 X) as [v1|]; [|discriminate]. cbn [bind] in E.
  destruct (scale_data X m1 v1) as [Z1|] eqn:Es; [|discriminate]. cbn [bind] in E. apply Ok_inj in E. injection E as <- <- <-. eapply scale_data_wf; eauto.
Qed.
Definition reorder_ft (o : list nat) (r : res (list R * list R * list (list R))) : res (list R * list R * list (list R)) :=
  match r with Ok (m, v, Z) => Ok (m, v, reorder o Z) | Err e => Err e end.
Lemma ft_reorder : forall env c s n p o X, documented_centre c -> documented_scale s -> l1opt_order_free env -> case_order n o -> wf n p X -> (0 < n)%nat ->
  ft env c s (reorder o X) = reorder_ft o (ft env c s X).
Proof.
  intros env c s n p o X Hc Hs He Ho HX Hn.
  assert (HP : Permutation X (reorder o X)) by (apply (reorder_perm n); auto; eapply wf_length; eauto).
  unfold ft. destruct (is_bad c s); [reflexivity|]. rewrite <- (location_perm env c 0 n p X) by auto. destruct (location env c 0 X) as [m|]; [|reflexivity]. cbn [bind].
  rewrite <- (scale_est_perm env s 0 n p X) by auto. destruct (scale_est env s 0 X) as [v|]; [|reflexivity]. cbn [bind].
  rewrite (reorder_scale_data n p) by auto. destruct (scale_data X m v); reflexivity.
Qed.
Lemma check_input_vec : forall (y : list R), (2 <= length y)%nat -> check_input (A1 y) = map (fun v => [v]) y.
Proof. intros y Hy. unfold check_input. cbn [length ncols hd]. destruct (Nat.leb_spec 2 (length y)); [reflexivity|lia]. Qed.

Lemma check_input_rows : forall n p (X : list (list R)), wf n p X -> (2 <= n)%nat -> check_input (A2 X) = X.
Proof. intros n p X HX Hn. unfold check_input. rewrite (wf_length _ _ _ HX). destruct (Nat.eqb_spec n 1); [lia|reflexivity]. Qed.
Lemma scaler_order_l : forall env c s t n p o X, documented_centre c -> documented_scale s -> l1opt_order_free env -> case_order n o -> is_matrix n p X -> (2 <= n)%nat ->
  sc_fit env (new_scaler c s t) (A2 (reorder o X)) = sc_fit env (new_scaler c s t) (A2 X) /\
  snd (sc_fit_transform env (new_scaler c s t) (A2 (reorder o X))) = match snd (sc_fit_transform env (new_scaler c s t) (A2 X)) with Ok Z => Ok (reorder o Z) | Err e => Err e end.
Proof.
  intros env c s t n p o X Hc Hs He Ho HX Hn. assert (WO : wf n p (reorder o X)) by (apply reorder_wf; auto).
  assert (HP : Permutation X (reorder o X)) by (apply (reorder_perm n); auto; eapply wf_length; eauto).
  assert (EF : sc_fit env (new_scaler c s t) (A2 (reorder o X)) = sc_fit env (new_scaler c s t) (A2 X)).
  { unfold sc_fit. rewrite (check_input_rows n p X), (check_input_rows n p (reorder o X)) by auto. cbn [new_scaler sc_center sc_scale sc_trimming].
    rewrite <- (location_perm env c t n p X (reorder o X)), <- (scale_est_perm env s t n p X (reorder o X)) by (auto; lia). reflexivity. }
  split; [exact EF|]. unfold sc_fit_transform. rewrite EF. destruct (sc_fit env (new_scaler c s t) (A2 X)) as [st1 [u|e]]; [|reflexivity].
  unfold sc_transform. rewrite (check_input_rows n p X), (check_input_rows n p (reorder o X)) by auto.
  destruct (a_center st1) as [m|]; [|reflexivity]. destruct (a_scale st1) as [v|]; [|reflexivity]. rewrite (reorder_scale_data n p) by (auto; lia). destruct (scale_data X m v) as [Z|e]; reflexivity.
Qed.
