(** Lemmas about VersatileScaler: equivariance, trimming, histories, single
    rows and breakdown (properties C05-C08, C10-C13). *)

From Coq Require Import Reals List Arith ZArith Bool Lia Lra Permutation Sorted.
Import ListNotations.
From Verif Require Import Num Err Vec VecR OrdR L_Mat S_Stats L_Stats M_Utils M_Preproc M_Robcent L_Scaling.
Open Scope R_scope.

(* ------------------------------------------------------------------ *)
(** * One column at a time *)

Definition col_loc (c : centre_opt R) (t : R) (v : list R) : res R :=
  match c with
  | CMean => if Req_EM_T t 0 then Ok (vmean v) else trim_mean1 t v
  | CMedian => Ok (vmedian v)
  | _ => Ok 0
  end.
Definition col_sca (s : scale_opt R) (t : R) (v : list R) : res R :=
  match s with
  | SStd => if Req_EM_T t 0 then Ok (sqrt (vvar v))
            else bind (trim_mean1 t v) (fun m =>
                 bind (trim_mean1 t (map (fun x => (x - m) * (x - m)) v)) (fun q => Ok (sqrt q)))
  | SMad => Ok (vmadR v)
  | _ => Ok 1
  end.

Lemma repeat_nth : forall {B} (x d : B) n i, (i < n)%nat -> nth i (repeat x n) d = x.
Proof. induction n; intros i Hi; [lia|]. destruct i; cbn; auto. apply IHn; lia. Qed.

Lemma mapM_cols_nth : forall {B} (f : list R -> res B) (X : list (list R)) (v : list B) j d,
  mapM f (cols X) = Ok v -> (j < ncols X)%nat -> f (col j X) = Ok (nth j v d).
Proof.
  intros B f X v j d E Hj. apply mapM_Ok_inv in E as [El En].
  rewrite <- (nth_cols X j []) by exact Hj. apply En. rewrite cols_length; exact Hj.
Qed.

Lemma location_col : forall env c t n p X m j, wf n p X -> (0 < n)%nat -> plain_centre c ->
  location env c t X = Ok m -> (j < p)%nat -> col_loc c t (col j X) = Ok (nth j m 0).
Proof.
  intros env c t n p X m j Hwf Hn Hc E Hj.
  assert (Hnc : ncols X = p) by (apply (wf_ncols n p); auto).
  destruct Hc as [->|[->| ->]]; cbn [location scale_est col_loc col_sca] in *.
  - unfold mean in E. rnum. unfold Reqb in E. destruct (Req_EM_T t 0).
    + rewrite manynan_R in E. injection E as <-. f_equal. symmetry. apply (map_cols_nth vmean); lia.
    + eapply mapM_cols_nth; eauto; lia.
  - injection E as <-. f_equal. symmetry. apply (median_nth n p); auto.
  - injection E as <-. f_equal. symmetry. apply repeat_nth. lia.
Qed.

Lemma scale_est_col : forall env s t n p X m j, wf n p X -> (0 < n)%nat -> plain_scale s ->
  scale_est env s t X = Ok m -> (j < p)%nat -> col_sca s t (col j X) = Ok (nth j m 0).
Proof.
  intros env s t n p X v j Hwf Hn Hc E Hj.
  assert (Hnc : ncols X = p) by (apply (wf_ncols n p); auto).
  destruct Hc as [->|[->| ->]]; cbn [location scale_est col_loc col_sca] in *.
  - unfold std in E. rnum. unfold Reqb in E. destruct (Req_EM_T t 0).
    + rewrite manynan_R in E. injection E as <-. f_equal. symmetry. rewrite map_map.
      apply (map_cols_nth (fun c => sqrt (vvar c))); lia.
    + destruct (mapM (trim_mean1 t) (cols X)) as [m|] eqn:Em; [|discriminate]. cbn [bind] in E.
      destruct (mapM (trim_mean1 t) (cols (map (map nsqr) _))) as [q|] eqn:Eq; [|discriminate].
      cbn [bind] in E. injection E as <-.
      apply trimmed_cols_length in Em as Hlm. rewrite Hnc in Hlm.
      assert (Hw1 : wf n p (rows_op nsub X m)) by (apply wf_map2_rows; auto).
      assert (Hw2 : wf n p (map (map nsqr) (rows_op nsub X m))) by (apply wf_mapmap; auto).
      pose proof (wf_ncols n p _ Hw2 Hn) as Hnc2.
      rewrite (mapM_cols_nth _ _ _ j 0 Em) by lia. cbn [bind].
      pose proof (mapM_cols_nth _ _ _ j 0 Eq) as E2. specialize (E2 ltac:(rewrite <- Hnc2 in Hj; exact Hj)).
      rewrite (col_mapmap n p) in E2 by auto. unfold rows_op in E2.
      rewrite (col_map2_rows n p) in E2 by auto. rewrite map_map in E2.
      unfold nsqr in E2. rnum. rewrite E2. cbn [bind]. f_equal.
      symmetry. apply nth_map_lt. apply trimmed_cols_length in Eq. rewrite Eq; lia.
  - injection E as <-. f_equal. symmetry. apply (mad_nth n p); auto.
  - injection E as <-. f_equal. symmetry. apply repeat_nth. lia.
Qed.

(** projections of a successful fit *)
Lemma fit_cols : forall env c s t n p X st, wf n p X -> (2 <= n)%nat -> plain_centre c -> plain_scale s ->
  sc_fit env (new_scaler c s t) (A2 X) = (st, Ok tt) ->
  exists m v, a_center st = Some m /\ a_scale st = Some v /\ length m = p /\ length v = p /\
    forall j, (j < p)%nat -> col_loc c t (col j X) = Ok (nth j m 0) /\ col_sca s t (col j X) = Ok (nth j v 0).
Proof.
  intros env c s t n p X st Hwf Hn Hc Hs E.
  assert (Hlen := C01_fit_lengths_l env (new_scaler c s t) st n p X Hwf Hn).
  destruct Hlen as [m [v [E1 [_ [E2 [_ [Hm Hv]]]]]]]; auto.
  { destruct Hs as [->|[->| ->]]; cbn; auto. }
  apply fit_ok_inv in E as [m' [v' [F1 [F2 [_ [_ ->]]]]]]. cbn in E1, E2, F1, F2.
  injection E1 as ->. injection E2 as ->.
  rewrite (check_input_id n p) in F1, F2 by auto.
  exists m, v. repeat split; auto.
  - eapply location_col; eauto; lia.
  - eapply scale_est_col; eauto; lia.
Qed.

Lemma tcut_iff : forall t n g, 0 <= t -> (tcut t n = g <-> INR g <= t * INR n < INR g + 1).
Proof.
  intros t n g Ht. unfold tcut. pose proof (base_Int_part (t * INR n)) as [H1 H2].
  assert (H0 : 0 <= t * INR n) by (apply Rmult_le_pos; [auto|apply pos_INR]).
  assert (Hz : (0 <= Int_part (t * INR n))%Z).
  { assert (-1 < IZR (Int_part (t * INR n))) by lra. apply lt_IZR in H. lia. }
  assert (E : INR (Z.to_nat (Int_part (t * INR n))) = IZR (Int_part (t * INR n))).
  { rewrite INR_IZR_INZ, Z2Nat.id; auto. }
  split.
  - intros <-. rewrite E. lra.
  - intros [H3 H4]. apply INR_eq. rewrite E. set (r := t * INR n) in *. rewrite (INR_IZR_INZ g) in *.
    assert (Int_part r < Z.of_nat g + 1)%Z by (apply lt_IZR; rewrite plus_IZR; lra).
    assert (Z.of_nat g < Int_part r + 1)%Z by (apply lt_IZR; rewrite plus_IZR; lra).
    f_equal; lia.
Qed.

(* ------------------------------------------------------------------ *)
(** * C05 *)

Lemma sqrt_sq_scale : forall a q, 0 <= q -> sqrt (a * a * q) = Rabs a * sqrt q.
Proof. intros a q Hq. rewrite sqrt_mult by (auto; apply Rle_0_sqr). f_equal. apply sqrt_Rsqr_abs. Qed.

Lemma trim_mean1_nonneg : forall t (l : list R) m, Forall (fun x => 0 <= x) l -> trim_mean1 t l = Ok m -> 0 <= m.
Proof.
  intros t l m Hl. rewrite trim_mean1_R. destruct (_ <? _)%nat; [discriminate|]. intros E; apply Ok_inj in E as <-.
  rewrite vmean_R. set (k := firstn _ _).
  assert (Hk : 0 <= vsum k).
  { apply vsum_nonneg. apply Forall_forall. intros x Hx. rewrite Forall_forall in Hl. apply Hl.
    apply (Permutation_in _ (Permutation_sym (sort_perm l))).
    rewrite <- (firstn_skipn (tcut t (length l)) (sort l)). apply in_or_app; right.
    rewrite <- (firstn_skipn (length l - 2 * tcut t (length l)) (skipn _ _)). apply in_or_app; left. exact Hx. }
  destruct k as [|y k']; [cbn; unfold Rdiv; lra|].
  apply Rmult_le_pos; auto. left. apply Rinv_0_lt_compat. apply INR_len_pos; discriminate.
Qed.

Lemma col_loc_affine : forall c t v m a b, v <> [] -> (c = CMean \/ c = CMedian) ->
  (t <> 0 -> (2 * tcut t (length v) < length v)%nat) ->
  col_loc c t v = Ok m -> col_loc c t (map (fun x => a * x + b) v) = Ok (a * m + b).
Proof.
  intros c t v m a b Hv Hc Ht E. destruct Hc as [->| ->]; cbn [col_loc] in *.
  - destruct (Req_EM_T t 0).
    + injection E as <-. f_equal. apply vmean_affine; auto.
    + destruct (trim_mean1_affine t a b v (Ht n)) as [m' [E1 E2]]. rewrite E in E1. injection E1 as <-. exact E2.
  - injection E as <-. f_equal. apply vmedian_affine; auto.
Qed.

Lemma col_sca_affine : forall s t v q a b, v <> [] -> (s = SStd \/ s = SMad) ->
  (t <> 0 -> (2 * tcut t (length v) < length v)%nat) ->
  col_sca s t v = Ok q -> col_sca s t (map (fun x => a * x + b) v) = Ok (Rabs a * q).
Proof.
  intros s t v q a b Hv Hs Ht E. destruct Hs as [->| ->]; cbn [col_sca] in *.
  - destruct (Req_EM_T t 0) as [_|Hn].
    + injection E as <-. f_equal. rewrite vvar_affine by auto. apply sqrt_sq_scale, vvar_nonneg.
    + destruct (trim_mean1_affine t a b v (Ht Hn)) as [m [E1 E2]]. rewrite E1 in E. rewrite E2. cbn [bind] in *.
      rewrite map_map.
      set (w := map (fun x => (x - m) * (x - m)) v) in *.
      assert (Ew : map (fun x => (a * x + b - (a * m + b)) * (a * x + b - (a * m + b))) v
                   = map (fun x => (a * a) * x + 0) w).
      { unfold w. rewrite map_map. apply map_ext; intros; ring. }
      rewrite Ew. assert (Hlw : length w = length v) by (unfold w; apply map_length).
      destruct (trim_mean1_affine t (a * a) 0 w) as [q' [E3 E4]].
      { rewrite Hlw. auto. }
      rewrite E3 in E. rewrite E4. cbn [bind] in *. injection E as <-. f_equal.
      rewrite Rplus_0_r. apply sqrt_sq_scale. eapply trim_mean1_nonneg; [|exact E3].
      unfold w. apply Forall_forall. intros x Hx. apply in_map_iff in Hx as [y [<- _]]. apply Rle_0_sqr.
  - injection E as <-. f_equal. apply vmadR_affine; auto.
Qed.

Lemma C05_equivariance_l : forall (env : prep_env R) c s t n p p' X X' k k' a b st st',
  is_matrix n p X -> is_matrix n p' X' -> (2 <= n)%nat -> (k < p)%nat -> (k' < p')%nat ->
  (c = CMean \/ c = CMedian) -> (s = SStd \/ s = SMad) ->
  (forall g, INR g <= t * INR n < INR g + 1 -> (2 * g < n)%nat) ->
  column k' X' = map (fun x => a * x + b) (column k X) ->
  sc_fit env (new_scaler c s t) (A2 X) = (st, Ok tt) ->
  sc_fit env (new_scaler c s t) (A2 X') = (st', Ok tt) ->
  exists m v m' v', a_center st = Some m /\ a_scale st = Some v /\ a_center st' = Some m' /\ a_scale st' = Some v' /\
    nth k' m' 0 = a * nth k m 0 + b /\ nth k' v' 0 = Rabs a * nth k v 0.
Proof.
  intros env c s t n p p' X X' k k' a b st st' Hw Hw' Hn Hk Hk' Hc Hs Hg Hcol E E'.
  assert (Hpc : plain_centre c) by (unfold plain_centre; tauto).
  assert (Hps : plain_scale s) by (unfold plain_scale; tauto).
  assert (Htr : 0 <= t).
  { apply fit_ok_inv in E as [? [? [_ [_ [E _]]]]]. cbn in E. apply check_trimming_R in E. lra. }
  destruct (fit_cols _ _ _ _ n p _ _ Hw Hn Hpc Hps E) as [m [v [E1 [E2 [_ [_ HE]]]]]].
  destruct (fit_cols _ _ _ _ n p' _ _ Hw' Hn Hpc Hps E') as [m' [v' [E3 [E4 [_ [_ HE']]]]]].
  exists m, v, m', v'. repeat split; auto.
  - destruct (HE k Hk) as [H1 _]. destruct (HE' k' Hk') as [H2 _].
    rewrite <- column_col in H2. rewrite Hcol in H2. rewrite column_col in H2.
    eapply col_loc_affine in H1; eauto.
    + rewrite H1 in H2. injection H2; auto.
    + apply (col_nonempty n p); auto; lia.
    + intros _. rewrite col_length, (wf_length _ _ _ Hw). apply Hg. apply tcut_iff; auto.
  - destruct (HE k Hk) as [_ H1]. destruct (HE' k' Hk') as [_ H2].
    rewrite <- column_col in H2. rewrite Hcol in H2. rewrite column_col in H2.
    eapply col_sca_affine in H1; eauto.
    + rewrite H1 in H2. injection H2; auto.
    + apply (col_nonempty n p); auto; lia.
    + intros _. rewrite col_length, (wf_length _ _ _ Hw). apply Hg. apply tcut_iff; auto.
Qed.

(* ------------------------------------------------------------------ *)
(** * C06 *)

Lemma cols_perm_map : forall {B} (f : list R -> B) n p (X Y : list (list R)), wf n p X -> (0 < n)%nat -> Permutation X Y ->
  (forall l l', Permutation l l' -> f l = f l') -> map f (cols X) = map f (cols Y).
Proof.
  intros B f n p X Y Hw Hn HP Hf.
  assert (HwY : wf n p Y) by (apply (wf_perm n p X); auto).
  destruct (Nat.eq_dec p 0) as [->|Hp].
  { unfold cols. rewrite (wf_ncols n 0 X), (wf_ncols n 0 Y) by auto. reflexivity. }
  apply (list_ext _ _ (f [])); [rewrite !map_length, !cols_length, (wf_ncols n p X), (wf_ncols n p Y); auto|].
  intros i Hi. rewrite map_length, cols_length, (wf_ncols n p X) in Hi by auto.
  rewrite !map_cols_nth by (rewrite (wf_ncols n p); auto). apply Hf, col_perm, HP.
Qed.

Lemma mapM_map_eq : forall {B C D} (f : B -> res C) (g : D -> res C) l l',
  map f l = map g l' -> mapM f l = mapM g l'.
Proof.
  intros B C D f g l; induction l as [|x l IH]; intros [|y l'] E; cbn in *; try discriminate; auto.
  injection E as E1 E2. rewrite E1, (IH _ E2). reflexivity.
Qed.

Lemma rows_op_perm : forall (f : R -> R -> R) X Y m, Permutation X Y -> Permutation (rows_op f X m) (rows_op f Y m).
Proof. intros; apply Permutation_map; auto. Qed.

Lemma median_perm : forall n p (X Y : list (list R)), wf n p X -> (0 < n)%nat -> Permutation X Y -> median X = median Y.
Proof. intros n p X Y Hw Hn HP. rewrite !median_R. apply (cols_perm_map vmedian n p); auto. apply vmedian_perm. Qed.

Lemma mad_perm : forall n p (X Y : list (list R)), wf n p X -> (0 < n)%nat -> Permutation X Y -> mad X = mad Y.
Proof.
  intros n p X Y Hw Hn HP. unfold mad, mad_with. rewrite (median_perm n p X Y) by auto. f_equal.
  apply (median_perm n p); auto.
  - apply wf_mapmap, wf_map2_rows; auto. rewrite median_length. apply (wf_ncols n p); auto.
    apply (wf_perm n p X); auto.
  - apply Permutation_map, rows_op_perm, HP.
Qed.

Lemma mean_perm : forall n p t (X Y : list (list R)), wf n p X -> (0 < n)%nat -> Permutation X Y -> mean X t = mean Y t.
Proof.
  intros n p t X Y Hw Hn HP. unfold mean. destruct (_ : bool).
  - rewrite !manynan_R. f_equal. apply (cols_perm_map vmean n p); auto. apply vmean_perm.
  - apply mapM_map_eq. apply (cols_perm_map _ n p); auto. apply trim_slice_perm.
Qed.

Lemma std_perm : forall n p t (X Y : list (list R)), wf n p X -> (0 < n)%nat -> Permutation X Y -> std X t = std Y t.
Proof.
  intros n p t X Y Hw Hn HP. unfold std. destruct (_ : bool).
  - rewrite !manynan_R. f_equal. f_equal. apply (cols_perm_map vvar n p); auto. apply vvar_perm.
  - assert (E : mapM (trim_mean1 t) (cols X) = mapM (trim_mean1 t) (cols Y)).
    { apply mapM_map_eq. apply (cols_perm_map _ n p); auto. apply trim_slice_perm. }
    rewrite <- E. destruct (mapM (trim_mean1 t) (cols X)) as [m|] eqn:Em; [|reflexivity]. cbn [bind].
    apply trimmed_cols_length in Em. rewrite (wf_ncols n p) in Em by auto.
    f_equal. apply mapM_map_eq. apply (cols_perm_map _ n p); auto.
    + apply wf_mapmap, wf_map2_rows; auto.
    + apply Permutation_map, rows_op_perm, HP.
    + apply trim_slice_perm.
Qed.

Lemma C06_row_order_l : forall (env : prep_env R) c s t n p X Y,
  is_matrix n p X -> (2 <= n)%nat -> Permutation X Y ->
  (c = CMean \/ c = CMedian \/ c = CNone) -> (s = SStd \/ s = SMad \/ s = SNone) ->
  sc_fit env (new_scaler c s t) (A2 X) = sc_fit env (new_scaler c s t) (A2 Y).
Proof.
  intros env c s t n p X Y Hw Hn HP Hc Hs.
  assert (HwY : wf n p Y) by (apply (wf_perm n p X); auto).
  unfold sc_fit. rewrite !(check_input_id n p) by auto. cbn [new_scaler sc_center sc_scale sc_trimming].
  assert (El : location env c t X = location env c t Y).
  { destruct Hc as [->|[->| ->]]; cbn [location].
    - apply (mean_perm n p); auto; lia.
    - f_equal; apply (median_perm n p); auto; lia.
    - rewrite (wf_ncols n p X), (wf_ncols n p Y); auto; lia. }
  assert (Es : scale_est env s t X = scale_est env s t Y).
  { destruct Hs as [->|[->| ->]]; cbn [scale_est].
    - apply (std_perm n p); auto; lia.
    - f_equal; apply (mad_perm n p); auto; lia.
    - rewrite (wf_ncols n p X), (wf_ncols n p Y); auto; lia. }
  rewrite El, Es. reflexivity.
Qed.

(* ------------------------------------------------------------------ *)
(** * C07 *)

Lemma C07_rejected_l : forall (env : prep_env R) st x, (sc_trimming st < 0 \/ 99/100 < sc_trimming st) ->
  sc_fit env st x = (st, Err ValueError).
Proof.
  intros env st x Ht. unfold sc_fit. destruct (check_trimming (sc_trimming st)) as [[]|e] eqn:E.
  - apply check_trimming_R in E. lra.
  - unfold check_trimming, raise_if in E. destruct (_ : bool) in E; [injection E as <-; reflexivity|discriminate].
Qed.

Lemma C07_too_much_l : forall (env : prep_env R) s t n p X g,
  is_matrix n p X -> (2 <= n)%nat -> (1 <= p)%nat -> 0 < t -> INR g <= t * INR n < INR g + 1 -> (n < 2 * g)%nat ->
  exists st', sc_fit env (new_scaler CMean s t) (A2 X) = (st', Err ValueError) \/
              sc_fit env (new_scaler CMean s t) (A2 X) = (st', Err NameError).
Proof.
  intros env s t n p X g Hw Hn Hp Ht Hg Hng. unfold sc_fit. cbn [new_scaler sc_center sc_scale sc_trimming].
  destruct (check_trimming t) as [[]|e] eqn:E.
  - destruct (is_bad _ _); [eexists; right; reflexivity|].
    rewrite (check_input_id n p) by auto.
    assert (Em : location env CMean t X = Err ValueError).
    { cbn [location]. unfold mean. rnum. unfold Reqb. destruct (Req_EM_T t 0); [lra|].
      unfold cols. rewrite (wf_ncols n p) by (auto; lia). destruct p as [|p]; [lia|]. cbn [seq map mapM].
      rewrite trim_mean1_R, col_length, (wf_length _ _ _ Hw).
      assert (Et : tcut t n = g) by (apply tcut_iff; [lra|exact Hg]). rewrite Et.
      destruct (Nat.ltb_spec n (2 * g)); [reflexivity|lia]. }
    rewrite Em. eexists; left; reflexivity.
  - unfold check_trimming, raise_if in E. destruct (_ : bool) in E; [injection E as <-|discriminate].
    eexists; left; reflexivity.
Qed.

Lemma C07_trimmed_mean_l : forall (env : prep_env R) s t n p X g st,
  is_matrix n p X -> (2 <= n)%nat -> plain_scale s -> t <> 0 -> INR g <= t * INR n < INR g + 1 ->
  sc_fit env (new_scaler CMean s t) (A2 X) = (st, Ok tt) ->
  exists m, a_center st = Some m /\ length m = p /\
    ((2 * g <= n)%nat \/ p = 0%nat) /\
    forall j, (j < p)%nat -> is_trimmed_mean g (column j X) (nth j m 0).
Proof.
  intros env s t n p X g st Hw Hn Hs Ht Hg E.
  assert (Ht0 : 0 <= t).
  { apply fit_ok_inv in E as [? [? [_ [_ [E _]]]]]. cbn in E. apply check_trimming_R in E. lra. }
  assert (Et : tcut t n = g) by (apply tcut_iff; auto).
  destruct (fit_cols _ _ _ _ n p _ _ Hw Hn (or_introl eq_refl) Hs E) as [m [v [E1 [E2 [Hm [_ HE]]]]]].
  exists m. repeat split; auto.
  - destruct p as [|p]; [right; reflexivity|left]. destruct (HE 0%nat ltac:(lia)) as [H1 _]. cbn [col_loc col_sca] in H1.
    destruct (Req_EM_T t 0); [contradiction|]. rewrite trim_mean1_R, col_length, (wf_length _ _ _ Hw), Et in H1.
    destruct (Nat.ltb_spec n (2 * g)); [discriminate|lia].
  - intros j Hj. destruct (HE j Hj) as [H1 _]. cbn [col_loc col_sca] in H1. destruct (Req_EM_T t 0); [contradiction|].
    apply is_trimmed_mean_model in H1. rewrite col_length, (wf_length _ _ _ Hw), Et in H1. exact H1.
Qed.

(* ------------------------------------------------------------------ *)
(** * C08 *)

Section History.
  Context {A : Type} `{Num A}.
  Variable env : prep_env A.

  (** parameters in force after a history, and the data of the last fit
      together with the parameters then in force *)
  Definition params_t : Type := (centre_opt A * scale_opt A * A)%type.
  Definition upd_params (q : params_t) (o : sc_op) : params_t :=
    match o with
    | OpSetParams c s t =>
        let '(c0, s0, t0) := q in
        (match c with Some c => c | None => c0 end,
         match s with Some s => s | None => s0 end,
         match t with Some t => t | None => t0 end)
    | _ => q
    end.
  Fixpoint last_fit (q : params_t) (acc : option (params_t * arr A)) (os : list sc_op) : option (params_t * arr A) :=
    match os with
    | [] => acc
    | o :: os' =>
        last_fit (upd_params q o)
          (match o with OpFit x | OpFitTransform x => Some (q, x) | _ => acc end) os'
    end.
  (** every fit in the history returns normally *)
  Definition fits_succeed (st0 : scaler A) (os : list sc_op) : Prop :=
    forall os1 o os2 x, os = os1 ++ o :: os2 -> (o = OpFit x \/ o = OpFitTransform x) ->
      snd (sc_fit env (sc_run env st0 os1) x) = Ok tt.

  Definition same_attrs (st1 st2 : scaler A) : Prop :=
    a_center st1 = a_center st2 /\ a_col_loc st1 = a_col_loc st2 /\
    a_scale st1 = a_scale st2 /\ a_col_sca st1 = a_col_sca st2.
  Definition params_of (st : scaler A) : params_t := (sc_center st, sc_scale st, sc_trimming st).
  Definition fresh (q : params_t) : scaler A := let '(c, s, t) := q in new_scaler c s t.

  Lemma fit_fresh : forall st x st', sc_fit env st x = (st', Ok tt) ->
    exists st'', sc_fit env (fresh (params_of st)) x = (st'', Ok tt) /\ same_attrs st' st''.
  Proof.
    intros st x st' E. apply fit_ok_inv in E as [m [s [E1 [E2 [E3 [E4 ->]]]]]].
    eexists. split; [apply (fit_ok_intro env (fresh (params_of st)) x m s); auto|]. repeat split; reflexivity.
  Qed.
  Lemma fit_params : forall st x, params_of (fst (sc_fit env st x)) = params_of st.
  Proof.
    intros st x. unfold sc_fit. destruct (check_trimming _); [|reflexivity]. destruct (is_bad _ _); [reflexivity|].
    destruct (location _ _ _ _); [|reflexivity]. destruct (scale_est _ _ _ _); reflexivity.
  Qed.
  Lemma transform_attrs : forall st x, same_attrs (fst (sc_transform st x)) st /\ params_of (fst (sc_transform st x)) = params_of st.
  Proof.
    intros st x. unfold sc_transform. destruct (a_center st) eqn:E1, (a_scale st) eqn:E2; try (repeat split; reflexivity).
    destruct (scale_data _ _ _); repeat split; auto.
  Qed.
  Lemma predict_attrs : forall st x, same_attrs (fst (sc_predict st x)) st /\ params_of (fst (sc_predict st x)) = params_of st.
  Proof.
    intros st x. unfold sc_predict. destruct (a_col_loc st) eqn:E1, (a_col_sca st) eqn:E2; try (repeat split; reflexivity).
    destruct (scale_data _ _ _); repeat split; auto.
  Qed.
  Lemma inverse_attrs : forall st x, fst (sc_inverse_transform st x) = st.
  Proof.
    intros st x. unfold sc_inverse_transform. destruct (a_center st), (a_scale st); try reflexivity.
    destruct (match x with Some x0 => _ | None => _ end); reflexivity.
  Qed.
  Lemma fit_transform_fst : forall st x st1, sc_fit env st x = (st1, Ok tt) ->
    fst (sc_fit_transform env st x) = fst (sc_transform st1 x).
  Proof.
    intros st x st1 E. unfold sc_fit_transform. rewrite E. destruct (sc_transform st1 x) as [st2 [|]]; [|reflexivity].
    destruct (a_datas st2); reflexivity.
  Qed.

  Definition hist_inv (st : scaler A) (last : option (params_t * arr A)) : Prop :=
    match last with
    | None => a_center st = None /\ a_col_loc st = None /\ a_scale st = None /\ a_col_sca st = None
    | Some (q, x) => exists st', sc_fit env (fresh q) x = (st', Ok tt) /\ same_attrs st st'
    end.

  Lemma same_attrs_inv : forall st1 st2 last, same_attrs st1 st2 -> hist_inv st2 last -> hist_inv st1 last.
  Proof.
    intros st1 st2 [[q x]|] [H1 [H2 [H3 H4]]]; cbn.
    - intros [st' [E [F1 [F2 [F3 F4]]]]]. exists st'. split; auto. repeat split; congruence.
    - intros [F1 [F2 [F3 F4]]]. repeat split; congruence.
  Qed.

  Lemma hist_gen : forall os st last, hist_inv st last -> fits_succeed st os ->
    hist_inv (sc_run env st os) (last_fit (params_of st) last os).
  Proof.
    induction os as [|o os IH]; intros st last HI HS; [exact HI|].
    assert (Hstep : params_of (sc_step env st o) = upd_params (params_of st) o /\
                    hist_inv (sc_step env st o) (match o with OpFit x | OpFitTransform x => Some (params_of st, x) | _ => last end)).
    { destruct o as [x|x|x|x|x|c s t]; cbn [sc_step upd_params].
      - pose proof (HS [] _ os x eq_refl (or_introl eq_refl)) as E. cbn in E.
        split; [apply fit_params|]. destruct (sc_fit env st x) as [st1 r] eqn:E1. cbn in E. subst r.
        destruct (fit_fresh _ _ _ E1) as [st2 [F1 F2]]. exists st2; auto.
      - destruct (transform_attrs st x) as [F1 F2]. split; auto. eapply same_attrs_inv; eauto.
      - destruct (predict_attrs st x) as [F1 F2]. split; auto. eapply same_attrs_inv; eauto.
      - pose proof (HS [] _ os x eq_refl (or_intror eq_refl)) as E. cbn in E.
        pose proof (fit_params st x) as Hp.
        destruct (sc_fit env st x) as [st1 r] eqn:E1. cbn in E, Hp. subst r.
        rewrite (fit_transform_fst _ _ _ E1). destruct (transform_attrs st1 x) as [G1 G2].
        split; [congruence|]. destruct (fit_fresh _ _ _ E1) as [st2 [F1 F2]].
        eapply same_attrs_inv; [exact G1|]. exists st2; auto.
      - rewrite inverse_attrs. split; auto.
      - split; [reflexivity|]. eapply same_attrs_inv; [|exact HI]. repeat split. }
    destruct Hstep as [Hp Hi]. cbn [sc_run fold_left last_fit]. rewrite <- Hp.
    apply IH; auto. intros os1 o' os2 x E Ho. apply (HS (o :: os1) o' os2 x); [cbn; congruence|auto].
  Qed.

  Lemma C08_history_l : forall c s t os, fits_succeed (new_scaler c s t) os ->
    let st := sc_run env (new_scaler c s t) os in
    match last_fit (c, s, t) None os with
    | None => a_center st = None /\ a_col_loc st = None /\ a_scale st = None /\ a_col_sca st = None /\
              (forall x, sc_transform st x = (st, Err NotFittedError)) /\
              (forall x, sc_inverse_transform st x = (st, Err NotFittedError)) /\
              (forall x, sc_predict st x = (st, Err AttributeError))
    | Some ((c', s', t'), x) =>
        exists st' m v, sc_fit env (new_scaler c' s' t') x = (st', Ok tt) /\
          a_center st' = Some m /\ a_scale st' = Some v /\
          a_center st = Some m /\ a_col_loc st = Some m /\ a_scale st = Some v /\ a_col_sca st = Some v
    end.
  Proof.
    intros c s t os HS st. assert (HI := hist_gen os (new_scaler c s t) None).
    cbn [hist_inv] in HI. specialize (HI ltac:(repeat split) HS). fold st in HI.
    change (params_of (new_scaler c s t)) with (c, s, t) in HI.
    destruct (last_fit (c, s, t) None os) as [[[[c' s'] t'] x]|]; cbn in HI.
    - destruct HI as [st' [E [F1 [F2 [F3 F4]]]]]. exists st'.
      pose proof E as E'. apply fit_ok_inv in E' as [m [v [_ [_ [_ [_ ->]]]]]]. cbn in F1, F2, F3, F4.
      exists m, v. repeat split; auto.
    - destruct HI as [F1 [F2 [F3 F4]]]. repeat split; auto.
      + intros x. unfold sc_transform. rewrite F1. reflexivity.
      + intros x. unfold sc_inverse_transform. rewrite F1. reflexivity.
      + intros x. unfold sc_predict. rewrite F2. reflexivity.
  Qed.
End History.

(* ------------------------------------------------------------------ *)
(** * C10 *)

Lemma C10_single_row_l : forall (st : scaler R) r m s p,
  length r = p -> (2 <= p)%nat -> a_center st = Some m -> a_scale st = Some s -> length m = p -> length s = p ->
  exists Xs, snd (sc_transform st (A2 [r])) = Ok Xs /\ is_matrix p 1 Xs /\
    forall j, (j < p)%nat -> standardised (nth j r 0) (nth 0 m 0) (nth 0 s 0) (cell Xs j 0).
Proof.
  intros st r m s p Hr Hp Hm Hs Hlm Hls. unfold sc_transform. rewrite Hm, Hs. unfold check_input.
  assert (Hw : wf p 1 (map (fun x : R => [x]) r)).
  { split; [rewrite map_length; auto|]. apply Forall_forall. intros y Hy. apply in_map_iff in Hy as [z [<- _]]. reflexivity. }
  assert (Hr2 : (2 <=? ncols [r])%nat = true) by (apply Nat.leb_le; cbn; lia).
  rewrite Hr2. cbn [length Nat.eqb andb hd].
  destruct m as [|m0 m]; [cbn in Hlm; lia|]. destruct s as [|s0 s]; [cbn in Hls; lia|].
  unfold scale_data. rewrite (wf_ncols p 1 _ Hw) by lia. cbn [Nat.eqb handle_zeros map].
  eexists; split; [reflexivity|]. split; [apply wf_mapmap, Hw|].
  intros j Hj. rewrite cell_mget. rewrite (mget_mapmap p 1) by (auto; lia). cbn [nth].
  unfold mget. rewrite (nth_map_lt _ _ _ 0) by lia. cbn [nth]. rnum. unfold Reqb.
  destruct (Req_EM_T s0 0) as [E|E]; split; intros; try contradiction; unfold Rdiv; try rewrite Rinv_1; try ring.
Qed.

(* ------------------------------------------------------------------ *)
(** * C11 - C13 *)

Lemma differ_count_in : forall a b (l l' : list R) k, differ_at_most k l l' -> bounds_common a b l l' ->
  (length l' <= count_in a b l' + k)%nat.
Proof.
  intros a b l. induction l as [|x l IH]; intros [|y l'] k [Hl Hd] Hb; cbn in Hl; try discriminate.
  - cbn; lia.
  - assert (Hb' : bounds_common a b l l').
    { intros i Hi E. apply (Hb (S i)); cbn; auto; lia. }
    cbn [combine filter fst snd length] in *. unfold count_in in *. cbn [filter].
    destruct (Req_EM_T x y) as [E|E].
    + specialize (IH l' k (conj (eq_add_S _ _ Hl) Hd) Hb').
      pose proof (Hb 0%nat ltac:(cbn; lia) E) as Hx. cbn in Hx. subst y.
      replace (Rleb a x && Rleb x b) with true by (symmetry; apply andb_true_iff; split; apply Rleb_true; lra).
      cbn [length]. lia.
    + cbn [length] in Hd. destruct k as [|k]; [lia|].
      specialize (IH l' k (conj (eq_add_S _ _ Hl) (le_S_n _ _ Hd)) Hb').
      destruct (Rleb a y && Rleb y b); cbn [length]; lia.
Qed.

Lemma differ_at_most_length : forall k l l', differ_at_most k l l' -> length l = length l'.
Proof. intros k l l' [H _]; exact H. Qed.

Lemma C11_median_l : forall (env : prep_env R) s t n p X' j l k a b st,
  is_matrix n p X' -> (2 <= n)%nat -> (j < p)%nat -> plain_scale s ->
  sc_fit env (new_scaler CMedian s t) (A2 X') = (st, Ok tt) ->
  differ_at_most k l (column j X') -> (2 * k < n)%nat -> bounds_common a b l (column j X') ->
  exists m, a_center st = Some m /\ a <= nth j m 0 <= b.
Proof.
  intros env s t n p X' j l k a b st Hw Hn Hj Hs E Hd Hk Hb.
  destruct (fit_cols _ _ _ _ n p _ _ Hw Hn (or_intror (or_introl eq_refl)) Hs E) as [m [v [E1 [_ [_ [_ HE]]]]]].
  exists m; split; auto. destruct (HE j Hj) as [H1 _]. cbn [col_loc col_sca] in H1. injection H1 as <-.
  apply vmedian_majority. pose proof (differ_count_in _ _ _ _ _ Hd Hb) as Hc. rewrite column_col in Hc.
  assert (Hlen : length (col j X') = n) by (rewrite col_length; apply (wf_length _ _ _ Hw)). lia.
Qed.

Lemma count_in_map : forall (f : R -> R) a b a' b' l, (forall x, a <= x <= b -> a' <= f x <= b') ->
  (count_in a b l <= count_in a' b' (map f l))%nat.
Proof.
  intros f a b a' b' l Hf. unfold count_in. induction l as [|x l IH]; cbn [filter map length]; [lia|].
  destruct (Rleb a x && Rleb x b) eqn:E.
  - apply andb_true_iff in E as [E1 E2]. apply Rleb_true in E1. apply Rleb_true in E2.
    destruct (Hf x (conj E1 E2)) as [F1 F2].
    replace (Rleb a' (f x) && Rleb (f x) b') with true by (symmetry; apply andb_true_iff; split; apply Rleb_true; lra).
    cbn [length]. lia.
  - destruct (Rleb a' (f x) && Rleb (f x) b'); cbn [length]; lia.
Qed.

Lemma C12_mad_bound_l : forall (env : prep_env R) c t n p X' j l k a b st,
  is_matrix n p X' -> (2 <= n)%nat -> (j < p)%nat -> plain_centre c ->
  sc_fit env (new_scaler c SMad t) (A2 X') = (st, Ok tt) ->
  differ_at_most k l (column j X') -> (2 * k < n)%nat -> bounds_common a b l (column j X') ->
  exists v, a_scale st = Some v /\ 0 <= nth j v 0 <= (b - a) / madcR.
Proof.
  intros env c t n p X' j l k a b st Hw Hn Hj Hc E Hd Hk Hb.
  destruct (fit_cols _ _ _ _ n p _ _ Hw Hn Hc (or_intror (or_introl eq_refl)) E) as [m [v [_ [E1 [_ [_ HE]]]]]].
  exists v; split; auto. destruct (HE j Hj) as [_ H1]. cbn [col_loc col_sca] in H1. injection H1 as <-.
  split; [apply vmadR_nonneg|].
  pose proof (differ_count_in _ _ _ _ _ Hd Hb) as Hcnt. rewrite column_col in Hcnt.
  assert (Hlen : length (col j X') = n) by (rewrite col_length; apply (wf_length _ _ _ Hw)).
  assert (Hm : a <= vmedian (col j X') <= b) by (apply vmedian_majority; lia).
  assert (Hdv : 0 <= vmedian (map (fun x => Rabs (x - vmedian (col j X'))) (col j X')) <= b - a).
  { apply vmedian_majority. rewrite map_length.
    pose proof (count_in_map (fun x => Rabs (x - vmedian (col j X'))) a b 0 (b - a) (col j X')) as Hci.
    assert (Hf : forall x, a <= x <= b -> 0 <= Rabs (x - vmedian (col j X')) <= b - a).
    { intros x Hx. split; [apply Rabs_pos|]. apply Rabs_le. lra. }
    specialize (Hci Hf). lia. }
  unfold vmadR. unfold Rdiv. apply Rmult_le_compat_r; [left; apply Rinv_0_lt_compat, madcR_pos|apply Hdv].
Qed.

Definition count_eq (v : R) (l : list R) : nat :=
  length (filter (fun x => if Req_EM_T x v then true else false) l).

Lemma vmedian_nonneg_zero : forall l, l <> [] -> Forall (fun x => 0 <= x) l ->
  (vmedian l = 0 <-> (length l < 2 * count_le 0 l)%nat).
Proof.
  intros l Hl Hp.
  assert (Hlen : (0 < length l)%nat) by (destruct l; [congruence|cbn; lia]).
  assert (Hhalf : (length l / 2 < length l)%nat) by (apply half_lt; auto).
  assert (Hnn : forall k, (k < length l)%nat -> 0 <= nth k (sort l) 0).
  { intros k Hk. rewrite Forall_forall in Hp. apply Hp, sort_nth_in, Hk. }
  split.
  - intros E. rewrite vmedian_mid in E by auto.
    assert (H1 := Hnn ((length l - 1) / 2)%nat).
    assert (H2 := Hnn (length l / 2)%nat Hhalf).
    assert (Hk1 : ((length l - 1) / 2 < length l)%nat).
    { apply Nat.le_lt_trans with (length l / 2)%nat; auto. apply Nat.div_le_mono; lia. }
    specialize (H1 Hk1).
    assert (Hz : nth (length l / 2) (sort l) 0 <= 0) by lra.
    apply sort_nth_le_count in Hz; auto. 
    pose proof (Nat.div_mod (length l) 2 ltac:(lia)). pose proof (Nat.mod_upper_bound (length l) 2 ltac:(lia)). lia.
  - intros Hc. apply Rle_antisym.
    + apply (vmedian_majority l 0 0).
      assert (E : count_in 0 0 l = count_le 0 l).
      { unfold count_in, count_le. f_equal. apply filter_ext_in. intros x Hx. rewrite Forall_forall in Hp.
        specialize (Hp x Hx). replace (Rleb 0 x) with true by (symmetry; apply Rleb_true; lra). reflexivity. }
      rewrite E. exact Hc.
    + apply (vmedian_bounds l 0 (vsum l) Hl). apply Forall_forall. intros x Hx. split.
      * rewrite Forall_forall in Hp; auto.
      * apply vsum_in_le; auto.
Qed.

Lemma C12_mad_zero_l : forall (env : prep_env R) c t n p X j st,
  is_matrix n p X -> (2 <= n)%nat -> (j < p)%nat -> plain_centre c ->
  sc_fit env (new_scaler c SMad t) (A2 X) = (st, Ok tt) ->
  exists v, a_scale st = Some v /\ 0 <= nth j v 0 /\
    forall m, is_median (column j X) m ->
      (nth j v 0 = 0 <-> (n < 2 * length (filter (fun x => if Req_EM_T x m then true else false) (column j X)))%nat).
Proof.
  intros env c t n p X j st Hw Hn Hj Hc E.
  destruct (fit_cols _ _ _ _ n p _ _ Hw Hn Hc (or_intror (or_introl eq_refl)) E) as [m0 [v [_ [E1 [_ [_ HE]]]]]].
  exists v; split; auto. destruct (HE j Hj) as [_ H1]. cbn [col_loc col_sca] in H1. injection H1 as <-.
  split; [apply vmadR_nonneg|]. intros m Hm. apply is_median_unique in Hm. subst m. change (column j X) with (col j X).
  set (x := col j X).
  assert (Hx : x <> []) by (apply (col_nonempty n p); auto; lia).
  assert (Hlx : length x = n) by (unfold x; rewrite col_length; apply (wf_length _ _ _ Hw)).
  set (d := map (fun y => Rabs (y - vmedian x)) x).
  assert (Hd : d <> []) by (unfold d; destruct x; [congruence|discriminate]).
  assert (Hz := vmedian_nonneg_zero d Hd).
  assert (Hp : Forall (fun y => 0 <= y) d).
  { apply Forall_forall; intros y Hy. unfold d in Hy. apply in_map_iff in Hy as [z [<- _]]. apply Rabs_pos. }
  specialize (Hz Hp).
  assert (Ec : count_le 0 d = length (filter (fun y => if Req_EM_T y (vmedian x) then true else false) x)).
  { unfold count_le, d. generalize (vmedian x) as q. intros q. clear. induction x as [|y x IH]; cbn [map filter length]; auto.
    destruct (Req_EM_T y q) as [E|E].
    - replace (Rleb (Rabs (y - q)) 0) with true; [cbn [length]; rewrite IH; auto|].
      symmetry; apply Rleb_true. subst y. rewrite Rminus_diag_eq by auto. rewrite Rabs_R0; lra.
    - replace (Rleb (Rabs (y - q)) 0) with false; [rewrite IH; auto|].
      symmetry; apply Rleb_false. apply Rabs_pos_lt. lra. }
  rewrite Ec in Hz. unfold d in Hz at 2. rewrite map_length, Hlx in Hz.
  unfold vmadR. fold d. rewrite <- Hz. pose proof madcR_pos. split.
  - intros E0. apply (f_equal (fun q => q * madcR)) in E0. unfold Rdiv in E0. rewrite Rmult_assoc, Rinv_l in E0 by lra. lra.
  - intros ->. unfold Rdiv; ring.
Qed.

Lemma mid_slice_in : forall (s : list R) g x, In x (firstn (length s - 2 * g) (skipn g s)) ->
  exists k, (g <= k < length s - g)%nat /\ x = nth k s 0.
Proof.
  intros s g x Hx. apply (In_nth _ _ 0) in Hx as [i [Hi <-]].
  rewrite firstn_length, skipn_length in Hi. exists (g + i)%nat. split; [lia|].
  assert (E : nth i (firstn (length s - 2 * g) (skipn g s)) 0 = nth i (skipn g s) 0).
  { rewrite <- (firstn_skipn (length s - 2 * g) (skipn g s)) at 2.
    rewrite app_nth1; auto. rewrite firstn_length, skipn_length; lia. }
  rewrite E. clear. revert s; induction g as [|g IH]; intros s; [reflexivity|].
  destruct s as [|y s]; cbn [skipn plus nth]; [destruct i; reflexivity|]. apply IH.
Qed.

Lemma trimmed_between : forall (l : list R) g m lo hi, is_trimmed_mean g l m -> (2 * g < length l)%nat ->
  is_order_stat l g lo -> is_order_stat l (length l - 1 - g) hi -> lo <= m <= hi.
Proof.
  intros l g m lo hi [s [HP [HS ->]]] Hg [s1 [HP1 [HS1 [_ ->]]]] [s2 [HP2 [HS2 [_ ->]]]].
  assert (E1 : s1 = s) by (apply sorted_perm_unique; auto; transitivity l; [symmetry|]; auto).
  assert (E2 : s2 = s) by (apply sorted_perm_unique; auto; transitivity l; [symmetry|]; auto).
  subst s1 s2. rewrite mean_of_vmean. rewrite (Permutation_length HP) in *.
  apply vmean_bounds.
  - intros Hc. apply (f_equal (@length R)) in Hc. rewrite firstn_length, skipn_length in Hc. cbn in Hc. lia.
  - apply Forall_forall. intros x Hx. apply mid_slice_in in Hx as [k [Hk ->]].
    split; apply sorted_nth_mono; auto; lia.
Qed.

Lemma trimmed_breakdown : forall (l l' : list R) g m a b, is_trimmed_mean g l' m -> (2 * g < length l')%nat ->
  differ_at_most g l l' -> bounds_common a b l l' -> a <= m <= b.
Proof.
  intros l l' g m a b Ht Hg Hd Hb. pose proof (differ_count_in _ _ _ _ _ Hd Hb) as Hc.
  pose proof (count_in_le a b l') as H1. pose proof (count_in_lt a b l') as H2.
  destruct Ht as [s [HP [HS ->]]].
  assert (Es : s = sort l') by (apply sorted_perm_unique; auto; [apply sort_sorted|transitivity l'; [symmetry; auto|apply sort_perm]]).
  subst s. rewrite mean_of_vmean. 
  assert (Hls : length l' = length (sort l')) by (symmetry; apply sort_length).
  apply vmean_bounds.
  - intros E. apply (f_equal (@length R)) in E. rewrite firstn_length, skipn_length, sort_length in E. cbn in E. lia.
  - apply Forall_forall. intros x Hx. rewrite Hls in Hx. apply mid_slice_in in Hx as [k [Hk ->]]. rewrite sort_length in Hk.
    split.
    + apply sort_nth_ge_count; lia.
    + apply sort_nth_le_count; lia.
Qed.

Lemma C13_trimmed_l : forall (env : prep_env R) s t n p X' j g l st,
  is_matrix n p X' -> (2 <= n)%nat -> (j < p)%nat -> plain_scale s -> t <> 0 ->
  INR g <= t * INR n < INR g + 1 -> (2 * g < n)%nat ->
  sc_fit env (new_scaler CMean s t) (A2 X') = (st, Ok tt) ->
  exists m, a_center st = Some m /\
    (forall lo hi, is_order_stat (column j X') g lo -> is_order_stat (column j X') (n - 1 - g) hi -> lo <= nth j m 0 <= hi) /\
    (forall a b, differ_at_most g l (column j X') -> bounds_common a b l (column j X') -> a <= nth j m 0 <= b).
Proof.
  intros env s t n p X' j g l st Hw Hn Hj Hs Ht Hg Hg2 E.
  destruct (C07_trimmed_mean_l env s t n p X' g st Hw Hn Hs Ht Hg E) as [m [E1 [_ [_ HT]]]].
  exists m; split; auto. specialize (HT j Hj).
  assert (Hlen : length (column j X') = n) by (unfold column; rewrite map_length; apply Hw).
  split.
  - intros lo hi Hlo Hhi. apply (trimmed_between (column j X') g); auto; rewrite Hlen; auto.
  - intros a b Hd Hb. apply (trimmed_breakdown l (column j X') g); auto. rewrite Hlen; auto.
Qed.

(** when fit succeeds *)
Lemma fit_succeeds : forall (env : prep_env R) c s t n p X,
  is_matrix n p X -> (2 <= n)%nat -> plain_centre c -> plain_scale s -> 0 <= t <= 99/100 ->
  (forall g, INR g <= t * INR n < INR g + 1 -> (2 * g <= n)%nat) ->
  exists st, sc_fit env (new_scaler c s t) (A2 X) = (st, Ok tt).
Proof.
  intros env c s t n p X Hw Hn Hc Hs Ht Hg.
  assert (Hnc : ncols X = p) by (apply (wf_ncols n p); auto; lia).
  assert (Htc : (2 * tcut t n <= n)%nat) by (apply Hg, tcut_iff; auto; lra).
  assert (HM : forall Y, wf n p Y -> exists m, mapM (trim_mean1 t) (cols Y) = Ok m).
  { intros Y HwY. eexists. apply (mapM_Ok _ (fun l => vmean (firstn (length l - 2 * tcut t (length l)) (skipn (tcut t (length l)) (sort l))))).
    intros l Hl. rewrite trim_mean1_R. apply in_cols in Hl as [j [_ ->]]. rewrite col_length, (wf_length _ _ _ HwY).
    destruct (Nat.ltb_spec n (2 * tcut t n)); [lia|reflexivity]. }
  assert (El : exists m, location env c t X = Ok m).
  { destruct Hc as [->|[->| ->]]; cbn [location]; eauto. unfold mean. destruct (_ : bool); eauto. }
  assert (Es : exists v, scale_est env s t X = Ok v).
  { destruct Hs as [->|[->| ->]]; cbn [scale_est]; eauto. unfold std. destruct (_ : bool); eauto.
    destruct (HM X Hw) as [m Em]. rewrite Em. cbn [bind]. apply trimmed_cols_length in Em. rewrite Hnc in Em.
    destruct (HM (map (map nsqr) (rows_op nsub X m))) as [q Eq]; [apply wf_mapmap, wf_map2_rows; auto|].
    rewrite Eq. cbn [bind]. eauto. }
  destruct El as [m El], Es as [v Es]. eexists. apply (fit_ok_intro env (new_scaler c s t) (A2 X) m v).
  - rewrite (check_input_id n p) by auto. exact El.
  - rewrite (check_input_id n p) by auto. exact Es.
  - apply check_trimming_R; auto.
  - destruct Hc as [->|[->| ->]], Hs as [->|[->| ->]]; reflexivity.
Qed.
