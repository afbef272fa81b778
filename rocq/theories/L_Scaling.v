(** Lemmas about VersatileScaler (properties C01-C08, C10). *)

From Coq Require Import Reals List Arith ZArith Bool Lia Lra Permutation Sorted.
Import ListNotations.
From Verif Require Import Num Err Vec VecR OrdR L_Mat S_Stats L_Stats M_Utils M_Preproc M_Robcent.
Open Scope R_scope.

(* ------------------------------------------------------------------ *)
(** * Basic facts at R *)

Lemma vanynan_R : forall v : list R, vanynan v = false.
Proof. intros v; unfold vanynan; induction v as [|x v IH]; cbn; auto. rewrite nisnan_R, IH; reflexivity. Qed.
Lemma manynan_R : forall X : list (list R), manynan X = false.
Proof. intros X; unfold manynan; induction X as [|x X IH]; cbn; auto. rewrite vanynan_R, IH; reflexivity. Qed.
Lemma nonnan_R : forall v : list R, nonnan v = v.
Proof. intros v; unfold nonnan; induction v as [|x v IH]; cbn; auto. rewrite nisnan_R; cbn; rewrite IH; reflexivity. Qed.

Lemma median_R : forall X : list (list R), median X = map vmedian (cols X).
Proof. intros; unfold median; rewrite manynan_R; reflexivity. Qed.
Lemma median_length : forall (X : list (list R)), length (median X) = ncols X.
Proof. intros; rewrite median_R, map_length, cols_length; reflexivity. Qed.
Lemma median_nth : forall n p (X : list (list R)) j, wf n p X -> (0 < n)%nat -> (j < p)%nat ->
  nth j (median X) 0 = vmedian (col j X).
Proof. intros n p X j Hwf Hn Hj. rewrite median_R. apply (map_cols_nth vmedian). rewrite (wf_ncols n p); auto. Qed.

Definition madcR : R := 6744897501960817 / 10000000000000000.
Lemma madcR_pos : 0 < madcR. Proof. unfold madcR; lra. Qed.
Lemma mad_c_R : mad_c (A:=R) = madcR. Proof. reflexivity. Qed.

Definition vmadR (l : list R) : R := vmedian (map (fun x => Rabs (x - vmedian l)) l) / madcR.

Lemma mad_length : forall n p (X : list (list R)), wf n p X -> (0 < n)%nat -> length (mad X) = p.
Proof.
  intros n p X Hwf Hn. unfold mad, mad_with. rewrite map_length, median_length.
  apply (wf_ncols n p); auto. apply wf_mapmap. apply wf_map2_rows; auto. rewrite median_length. apply (wf_ncols n p); auto.
Qed.
Lemma mad_nth : forall n p (X : list (list R)) j, wf n p X -> (0 < n)%nat -> (j < p)%nat ->
  nth j (mad X) 0 = vmadR (col j X).
Proof.
  intros n p X j Hwf Hn Hj. unfold mad, mad_with.
  assert (Hlm : length (median X) = p) by (rewrite median_length; apply (wf_ncols n p); auto).
  assert (Hwf' : wf n p (map (map nabs) (rows_op nsub X (median X)))).
  { apply wf_mapmap. apply wf_map2_rows; auto. }
  rewrite (nth_map_lt _ _ _ 0) by (rewrite median_length; rewrite (wf_ncols n p); auto).
  rewrite mad_c_R. unfold vmadR. rnum. f_equal. rewrite (median_nth n p); auto. f_equal.
  rewrite (col_mapmap n p); [|apply wf_map2_rows; auto|auto].
  unfold rows_op. rewrite (col_map2_rows n p) by auto. rewrite map_map. rnum.
  rewrite (median_nth n p); auto.
Qed.

Lemma mean0_R : forall X : list (list R), mean X 0 = Ok (map vmean (cols X)).
Proof. intros; unfold mean; rnum; rewrite Reqb_refl, manynan_R; reflexivity. Qed.
Lemma std0_R : forall X : list (list R), std X 0 = Ok (map sqrt (map vvar (cols X))).
Proof. intros; unfold std; rnum; rewrite Reqb_refl, manynan_R; reflexivity. Qed.

Lemma handle_zeros_length : forall s : list R, length (handle_zeros s) = length s.
Proof. intros; apply map_length. Qed.
Lemma handle_zeros_nth : forall (s : list R) j, (j < length s)%nat ->
  nth j (handle_zeros s) 0 = if Req_EM_T (nth j s 0) 0 then 1 else nth j s 0.
Proof.
  intros s j Hj. unfold handle_zeros. rewrite (nth_map_lt _ _ _ 0) by exact Hj. rnum. unfold Reqb.
  destruct (Req_EM_T (nth j s 0) 0); reflexivity.
Qed.

Lemma check_input_id : forall {A} (n p : nat) (X : list (list A)), wf n p X -> (2 <= n)%nat -> check_input (A2 X) = X.
Proof.
  intros A n p X [Hl _] Hn. unfold check_input. destruct (Nat.eqb_spec (length X) 1); [lia|]. reflexivity.
Qed.

Lemma standardised_intro : forall x m s, standardised x m s ((x - m) / (if Req_EM_T s 0 then 1 else s)).
Proof.
  intros x m s; split; intros Hs; destruct (Req_EM_T s 0); try contradiction; auto; unfold Rdiv; rewrite Rinv_1; ring.
Qed.
Lemma standardised_unique : forall x m s r, standardised x m s r -> r = (x - m) / (if Req_EM_T s 0 then 1 else s).
Proof. intros x m s r [H1 H2]. destruct (Req_EM_T s 0); [rewrite H1 by auto; field|rewrite H2 by auto; reflexivity]. Qed.

Lemma scale_data_cells : forall n p (X : list (list R)) m s, wf n p X -> (1 <= n)%nat -> (1 <= p)%nat ->
  length m = p -> length s = p ->
  exists Xs, scale_data X m s = Ok Xs /\ wf n p Xs /\
    forall i j, (i < n)%nat -> (j < p)%nat ->
      mget Xs i j = (mget X i j - nth j m 0) / (if Req_EM_T (nth j s 0) 0 then 1 else nth j s 0).
Proof.
  intros n p X m s Hwf Hn Hp Hm Hs. unfold scale_data. rewrite (wf_ncols n p) by (auto; lia).
  destruct (Nat.eqb_spec p 1) as [->|Hp1].
  - destruct m as [|m0 m]; [cbn in Hm; lia|]. destruct s as [|s0 s]; [cbn in Hs; lia|]. cbn [handle_zeros map].
    eexists; split; [reflexivity|]. split; [apply wf_mapmap, Hwf|].
    intros i j Hi Hj. assert (j = 0)%nat by lia. subst j. rewrite (mget_mapmap n 1) by auto.
    rnum. cbn [nth]. unfold Reqb. destruct (Req_EM_T s0 0); reflexivity.
  - rewrite Hm, handle_zeros_length, Hs, Nat.eqb_refl. cbn [bind].
    eexists; split; [reflexivity|].
    assert (Hwf1 : wf n p (rows_op nsub X m)) by (apply wf_map2_rows; auto).
    split; [apply wf_map2_rows; auto; rewrite handle_zeros_length; auto|].
    intros i j Hi Hj. unfold rows_op at 1. rewrite (mget_map2_rows n p); auto; [|rewrite handle_zeros_length; auto].
    unfold rows_op. rewrite (mget_map2_rows n p) by auto. 
    change (@n0 R Num_R) with 0. rewrite handle_zeros_nth by lia. reflexivity.
Qed.

(* ------------------------------------------------------------------ *)
(** * C01 *)

Lemma C01_transform_cells_l : forall (st : scaler R) n p X m s,
  is_matrix n p X -> (2 <= n)%nat -> (1 <= p)%nat ->
  a_center st = Some m -> a_scale st = Some s -> length m = p -> length s = p ->
  exists Xs, snd (sc_transform st (A2 X)) = Ok Xs /\ is_matrix n p Xs /\
    forall i j, (i < n)%nat -> (j < p)%nat ->
      standardised (cell X i j) (nth j m 0) (nth j s 0) (cell Xs i j).
Proof.
  intros st n p X m s Hwf Hn Hp Hm Hs Hlm Hls. unfold sc_transform. rewrite Hm, Hs.
  rewrite (check_input_id n p) by auto.
  destruct (scale_data_cells n p X m s Hwf ltac:(lia) Hp Hlm Hls) as [Xs [E [Hw Hc]]].
  rewrite E. exists Xs. split; [reflexivity|]. split; [exact Hw|].
  intros i j Hi Hj. rewrite !cell_mget, Hc by auto. apply standardised_intro.
Qed.

Lemma C01_predict_cells_l : forall (st : scaler R) n p X m s,
  is_matrix n p X -> (2 <= n)%nat -> (1 <= p)%nat ->
  a_col_loc st = Some m -> a_col_sca st = Some s -> length m = p -> length s = p ->
  exists Xs, snd (sc_predict st (A2 X)) = Ok Xs /\ is_matrix n p Xs /\
    forall i j, (i < n)%nat -> (j < p)%nat ->
      standardised (cell X i j) (nth j m 0) (nth j s 0) (cell Xs i j).
Proof.
  intros st n p X m s Hwf Hn Hp Hm Hs Hlm Hls. unfold sc_predict. rewrite Hm, Hs.
  rewrite (check_input_id n p) by auto.
  destruct (scale_data_cells n p X m s Hwf ltac:(lia) Hp Hlm Hls) as [Xs [E [Hw Hc]]].
  rewrite E. exists Xs. split; [reflexivity|]. split; [exact Hw|].
  intros i j Hi Hj. rewrite !cell_mget, Hc by auto. apply standardised_intro.
Qed.

Lemma C01_fit_transform_l : forall {A} `{Num A} (env : prep_env A) (st st' : scaler A) x Xs,
  sc_fit_transform env st x = (st', Ok Xs) <->
  exists st1, sc_fit env st x = (st1, Ok tt) /\ sc_transform st1 x = (st', Ok Xs).
Proof.
  intros A HA env st st' x Xs. unfold sc_fit_transform. destruct (sc_fit env st x) as [st1 [[]|e]] eqn:E.
  - destruct (sc_transform st1 x) as [st2 [Y|e]] eqn:E2.
    + assert (Hd : a_datas st2 = Some Y).
      { unfold sc_transform in E2. destruct (a_center st1), (a_scale st1); try discriminate.
        destruct (scale_data _ _ _); try discriminate. injection E2 as <- <-. reflexivity. }
      rewrite Hd. split.
      * intros E3; injection E3 as <- <-. exists st1. auto.
      * intros [s1 [E3 E4]]. injection E3 as <-. rewrite E2 in E4. injection E4 as <- <-. reflexivity.
    + split; [discriminate|]. intros [s1 [E3 E4]]. injection E3 as <-. rewrite E2 in E4. discriminate.
  - split; [discriminate|]. intros [s1 [E3 _]]. discriminate.
Qed.

(** what a successful fit stores *)
Lemma fit_ok_inv : forall {A} `{Num A} (env : prep_env A) (st st' : scaler A) x,
  sc_fit env st x = (st', Ok tt) ->
  exists m s, location env (sc_center st) (sc_trimming st) (check_input x) = Ok m /\
    scale_est env (sc_scale st) (sc_trimming st) (check_input x) = Ok s /\
    check_trimming (sc_trimming st) = Ok tt /\
    is_bad (sc_center st) (sc_scale st) = false /\
    st' = mk_scaler (sc_center st) (sc_scale st) (sc_trimming st) (Some m) (Some m) (Some s) (Some s)
            (a_datas st) (a_datans st).
Proof.
  intros A HA env st st' x E. unfold sc_fit in E.
  destruct (check_trimming _) as [[]|]; [|discriminate].
  destruct (is_bad _ _) eqn:Eb; [discriminate|].
  destruct (location _ _ _ _) as [m|]; [|discriminate].
  destruct (scale_est _ _ _ _) as [s|]; [|discriminate].
  injection E as <-. exists m, s. auto.
Qed.

Lemma fit_ok_intro : forall {A} `{Num A} (env : prep_env A) (st : scaler A) x m s,
  location env (sc_center st) (sc_trimming st) (check_input x) = Ok m ->
  scale_est env (sc_scale st) (sc_trimming st) (check_input x) = Ok s ->
  check_trimming (sc_trimming st) = Ok tt -> is_bad (sc_center st) (sc_scale st) = false ->
  sc_fit env st x = (mk_scaler (sc_center st) (sc_scale st) (sc_trimming st) (Some m) (Some m) (Some s) (Some s)
            (a_datas st) (a_datans st), Ok tt).
Proof.
  intros A HA env st x m s E1 E2 E3 E4. unfold sc_fit. rewrite E3, E4, E1, E2. reflexivity.
Qed.

Lemma check_trimming_R : forall t, check_trimming t = Ok tt <-> 0 <= t <= 99/100.
Proof.
  intros t. unfold check_trimming, raise_if. rnum.
  destruct (Rltb (99 / 100) t) eqn:E1, (Rltb t 0) eqn:E2; cbn; rcmp_all;
    split; intros; try discriminate; auto; lra.
Qed.

(** documented estimators other than the optimiser-based ones *)
Definition plain_centre (c : centre_opt R) : Prop := c = CMean \/ c = CMedian \/ c = CNone.
Definition plain_scale (s : scale_opt R) : Prop := s = SStd \/ s = SMad \/ s = SNone.

Lemma trimmed_cols_length : forall t (X : list (list R)) m,
  mapM (trim_mean1 t) (cols X) = Ok m -> length m = ncols X.
Proof. intros t X m E. apply mapM_Ok_inv in E as [E _]. rewrite E. apply cols_length. Qed.

Lemma mean_length : forall t (X : list (list R)) m, mean X t = Ok m -> length m = ncols X.
Proof.
  intros t X m. unfold mean. destruct (_ : bool).
  - intros E; injection E as <-. rewrite manynan_R, map_length. apply cols_length.
  - apply trimmed_cols_length.
Qed.
Lemma std_length : forall n p t (X : list (list R)) s, wf n p X -> (0 < n)%nat -> std X t = Ok s -> length s = p.
Proof.
  intros n p t X s Hwf Hn. unfold std. destruct (_ : bool).
  - intros E; injection E as <-. rewrite manynan_R, !map_length, cols_length. apply (wf_ncols n p); auto.
  - destruct (mapM (trim_mean1 t) (cols X)) as [m|] eqn:E; [|discriminate]. cbn [bind].
    apply trimmed_cols_length in E as Em. rewrite (wf_ncols n p) in Em by auto.
    destruct (mapM (trim_mean1 t) (cols (map (map nsqr) _))) as [v|] eqn:E2; [|discriminate]. cbn [bind]. intros E3; injection E3 as <-.
    rewrite map_length. apply trimmed_cols_length in E2. rewrite E2.
    apply (wf_ncols n p); auto. apply wf_mapmap. apply wf_map2_rows; auto.
Qed.

Lemma scaleTau2_length : forall n p es2 c1 c2 co fi (X : list (list R)), wf n p X -> (0 < n)%nat ->
  length (scaleTau2 es2 c1 c2 co fi X) = p.
Proof.
  intros n p es2 c1 c2 co fi X Hwf Hn. unfold scaleTau2. rewrite map_length, median_length.
  apply (wf_ncols n p); auto. apply wf_mapmap, wf_map2_rows; auto.
  rewrite median_length; apply (wf_ncols n p); auto.
Qed.

(** a successful fit of a matrix stores p centres and p scales *)
Lemma C01_fit_lengths_l : forall (env : prep_env R) st st' n p X,
  is_matrix n p X -> (2 <= n)%nat ->
  (sc_center st = CMean \/ sc_center st = CMedian \/ sc_center st = CNone) ->
  (sc_scale st = SStd \/ sc_scale st = SMad \/ sc_scale st = STau2 \/ sc_scale st = SNone) ->
  sc_fit env st (A2 X) = (st', Ok tt) ->
  exists m s, a_center st' = Some m /\ a_col_loc st' = Some m /\
              a_scale st' = Some s /\ a_col_sca st' = Some s /\ length m = p /\ length s = p.
Proof.
  intros env st st' n p X Hwf Hn Hc Hs E. apply fit_ok_inv in E as [m [s [E1 [E2 [E3 [E4 ->]]]]]].
  rewrite (check_input_id n p) in E1, E2 by auto. exists m, s. cbn. repeat split; auto.
  - destruct Hc as [Hc|[Hc|Hc]]; rewrite Hc in E1; cbn in E1.
    + apply mean_length in E1. rewrite E1. apply (wf_ncols n p); auto; lia.
    + injection E1 as <-. rewrite median_length. apply (wf_ncols n p); auto; lia.
    + injection E1 as <-. rewrite repeat_length. apply (wf_ncols n p); auto; lia.
  - destruct Hs as [Hs|[Hs|[Hs|Hs]]]; rewrite Hs in E2; cbn in E2.
    + apply (std_length n p) in E2; auto; lia.
    + injection E2 as <-. apply (mad_length n p); auto; lia.
    + injection E2 as <-. apply (scaleTau2_length n p); auto; lia.
    + injection E2 as <-. rewrite repeat_length. apply (wf_ncols n p); auto; lia.
Qed.

(* ------------------------------------------------------------------ *)
(** * C02 *)

Lemma C02_roundtrip_iff_l : forall (st : scaler R) n p X m s,
  is_matrix n p X -> (2 <= n)%nat -> (1 <= p)%nat ->
  a_center st = Some m -> a_scale st = Some s -> length m = p -> length s = p ->
  exists Xs Xb, snd (sc_transform st (A2 X)) = Ok Xs /\
    snd (sc_inverse_transform st (Some (A2 Xs))) = Ok Xb /\
    (Xb = X <-> forall j, (j < p)%nat -> nth j s 0 = 0 -> forall i, (i < n)%nat -> cell X i j = nth j m 0).
Proof.
  intros st n p X m s Hwf Hn Hp Hm Hs Hlm Hls. unfold sc_transform, sc_inverse_transform. rewrite Hm, Hs.
  rewrite (check_input_id n p) by auto.
  destruct (scale_data_cells n p X m s Hwf ltac:(lia) Hp Hlm Hls) as [Xs [E [Hw Hc]]].
  rewrite E. cbn [snd]. exists Xs. rewrite (check_input_id n p) by auto. unfold bc_rows at 1.
  rewrite (wf_ncols n p) by (auto; lia). rewrite Hls, Nat.eqb_refl. cbn [bind].
  assert (Hw2 : wf n p (rows_op nmul Xs s)) by (apply wf_map2_rows; auto).
  unfold bc_rows. rewrite (wf_ncols n p _ Hw2) by lia. rewrite Hlm, Nat.eqb_refl.
  exists (rows_op nadd (rows_op nmul Xs s) m). split; [reflexivity|]. split; [reflexivity|].
  assert (Hw3 : wf n p (rows_op nadd (rows_op nmul Xs s) m)) by (apply wf_map2_rows; auto).
  assert (Hcell : forall i j, (i < n)%nat -> (j < p)%nat ->
     mget (rows_op nadd (rows_op nmul Xs s) m) i j =
     (mget X i j - nth j m 0) / (if Req_EM_T (nth j s 0) 0 then 1 else nth j s 0) * nth j s 0 + nth j m 0).
  { intros i j Hi Hj. unfold rows_op at 1. rewrite (mget_map2_rows n p) by auto.
    unfold rows_op. rewrite (mget_map2_rows n p) by auto. rnum. rewrite Hc by auto. reflexivity. }
  split.
  - intros EX j Hj Hz i Hi. rewrite cell_mget. specialize (Hcell i j Hi Hj). rewrite EX, Hz in Hcell.
    rewrite Rmult_0_r in Hcell. lra.
  - intros Hz. apply (mat_ext n p); auto. intros i j Hi Hj. rewrite Hcell by auto.
    destruct (Req_EM_T (nth j s 0) 0) as [E0|E0].
    + specialize (Hz j Hj E0 i Hi). rewrite cell_mget in Hz. rewrite Hz, E0. field.
    + field; exact E0.
Qed.

(* ------------------------------------------------------------------ *)
(** * C03 *)

Definition constant_list (l : list R) : Prop := forall x y, In x l -> In y l -> x = y.

Lemma vvar_const_iff : forall l : list R, l <> [] -> (vvar l = 0 <-> constant_list l).
Proof.
  intros l Hl; split.
  - intros Hv x y Hx Hy. apply vvar_zero_const in Hv. rewrite Forall_forall in Hv.
    rewrite (Hv x), (Hv y) by auto. reflexivity.
  - intros Hc. destruct l as [|x0 l]; [congruence|].
    assert (HF : Forall (fun x => x0 <= x <= x0) (x0 :: l)).
    { apply Forall_forall; intros x Hx. rewrite (Hc x x0 Hx (or_introl eq_refl)). lra. }
    pose proof (vmean_bounds (x0 :: l) x0 x0 Hl HF) as Hm.
    rewrite vvar_R, vmean_R. rewrite vsum_zero; [unfold Rdiv; lra|].
    intros y Hy. apply in_map_iff in Hy as [x [<- Hx]]. rewrite (Hc x x0 Hx (or_introl eq_refl)).
    replace (vmean (x0 :: l)) with x0 by lra. ring.
Qed.

Lemma cols_affine_map : forall n p (X Xs : list (list R)) m d j, wf n p X -> wf n p Xs -> (j < p)%nat ->
  (forall i, (i < n)%nat -> mget Xs i j = (mget X i j - m) / d) ->
  col j Xs = map (fun x => / d * x + - (m / d)) (col j X).
Proof.
  intros n p X Xs m d j Hw Hws Hj Hc. apply (list_ext _ _ 0).
  - rewrite map_length, !col_length, (wf_length _ _ _ Hw), (wf_length _ _ _ Hws); reflexivity.
  - intros i Hi. rewrite col_length, (wf_length _ _ _ Hws) in Hi.
    rewrite (nth_map_lt _ _ _ 0) by (rewrite col_length, (wf_length _ _ _ Hw); auto).
    pose proof (nth_col Xs i j) as E1. pose proof (nth_col X i j) as E2. rnum. rewrite E1, E2, Hc by auto.
    unfold Rdiv; ring.
Qed.

Lemma col_nonempty : forall n p (X : list (list R)) j, wf n p X -> (0 < n)%nat -> col j X <> [].
Proof. intros n p X j [Hl _] Hn Hc. apply (f_equal (@length R)) in Hc. rewrite col_length in Hc. cbn in Hc; lia. Qed.

Lemma fit_transform_cells : forall (env : prep_env R) c s t n p X m sc,
  wf n p X -> (2 <= n)%nat -> (1 <= p)%nat -> 0 <= t <= 99/100 -> is_bad c s = false ->
  location env c t X = Ok m -> scale_est env s t X = Ok sc -> length m = p -> length sc = p ->
  exists st Xs, sc_fit_transform env (new_scaler c s t) (A2 X) = (st, Ok Xs) /\ wf n p Xs /\
    a_center st = Some m /\ a_scale st = Some sc /\
    forall i j, (i < n)%nat -> (j < p)%nat ->
      mget Xs i j = (mget X i j - nth j m 0) / (if Req_EM_T (nth j sc 0) 0 then 1 else nth j sc 0).
Proof.
  intros env c s t n p X m sc Hwf Hn Hp Ht Hb Em Es Hlm Hls.
  destruct (scale_data_cells n p X m sc Hwf ltac:(lia) Hp Hlm Hls) as [Xs [E [Hw Hc]]].
  assert (Hfit := fit_ok_intro env (new_scaler c s t) (A2 X) m sc).
  cbn [new_scaler sc_center sc_scale sc_trimming a_datas a_datans] in Hfit.
  rewrite (check_input_id n p) in Hfit by auto.
  specialize (Hfit Em Es (proj2 (check_trimming_R t) Ht) Hb).
  eexists; exists Xs. split; [|split; [exact Hw|split; [|split; [|exact Hc]]]].
  - apply C01_fit_transform_l. eexists; split; [exact Hfit|].
    unfold sc_transform. cbn [a_center a_scale]. rewrite (check_input_id n p) by auto. rewrite E. reflexivity.
  - reflexivity.
  - reflexivity.
Qed.

Lemma C03_mean_std_l : forall (env : prep_env R) n p X,
  is_matrix n p X -> (2 <= n)%nat -> (1 <= p)%nat ->
  exists st Xs, sc_fit_transform env (new_scaler CMean SStd 0) (A2 X) = (st, Ok Xs) /\ is_matrix n p Xs /\
    forall j, (j < p)%nat ->
      mean_of (column j Xs) = 0 /\
      (constant_list (column j X) -> forall i, (i < n)%nat -> cell Xs i j = 0) /\
      (~ constant_list (column j X) -> variance_of (column j Xs) = 1).
Proof.
  intros env n p X Hwf Hn Hp.
  assert (Hnc : ncols X = p) by (apply (wf_ncols n p); auto; lia).
  destruct (fit_transform_cells env CMean SStd 0 n p X (map vmean (cols X)) (map sqrt (map vvar (cols X))))
    as [st [Xs [E [Hw [_ [_ Hc]]]]]]; auto; try lra.
  - apply mean0_R.
  - apply std0_R.
  - rewrite map_length, cols_length; exact Hnc.
  - rewrite !map_length, cols_length; exact Hnc.
  - exists st, Xs. split; [exact E|]. split; [exact Hw|]. intros j Hj. rewrite (column_col j X), (column_col j Xs).
    assert (Hne : col j X <> []) by (apply (col_nonempty n p); auto; lia).
    assert (Em : nth j (map vmean (cols X)) 0 = vmean (col j X)) by (apply (map_cols_nth vmean); lia).
    assert (Es : nth j (map sqrt (map vvar (cols X))) 0 = sqrt (vvar (col j X))).
    { rewrite map_map. apply (map_cols_nth (fun c => sqrt (vvar c))). lia. }
    rewrite mean_of_vmean, variance_of_vvar.
    set (d := if Req_EM_T (sqrt (vvar (col j X))) 0 then 1 else sqrt (vvar (col j X))).
    assert (Hd : d <> 0) by (unfold d; destruct (Req_EM_T _ 0); [lra|assumption]).
    assert (Hcol : col j Xs = map (fun x => / d * x + - (vmean (col j X) / d)) (col j X)).
    { apply (cols_affine_map n p); auto. intros i Hi. rewrite Hc by auto. rewrite Em, Es. reflexivity. }
    split; [|split].
    + rewrite Hcol, vmean_affine by exact Hne. field; exact Hd.
    + intros Hconst i Hi. rewrite cell_mget, Hc by auto. rewrite Em.
      apply vvar_const_iff in Hconst; [|exact Hne]. apply vvar_zero_const in Hconst.
      rewrite Forall_forall in Hconst. pose proof (nth_col X i j) as E1. rnum.
      rewrite <- E1. rewrite (Hconst (nth i (col j X) 0)); [unfold Rdiv; ring|].
      apply nth_In. rewrite col_length, (wf_length _ _ _ Hwf); auto.
    + intros Hnconst. rewrite Hcol, vvar_affine by exact Hne.
      assert (Hv : 0 < vvar (col j X)).
      { destruct (vvar_nonneg (col j X)) as [|Hz]; auto. exfalso; apply Hnconst, vvar_const_iff; auto. }
      assert (Hsq : d = sqrt (vvar (col j X))).
      { unfold d. destruct (Req_EM_T _ 0) as [E0|]; auto. pose proof (sqrt_lt_R0 _ Hv). lra. }
      rewrite Hsq. pose proof (sqrt_lt_R0 _ Hv). 
      rewrite <- (sqrt_sqrt (vvar (col j X))) at 3 by lra. field. lra.
Qed.

(* ------------------------------------------------------------------ *)
(** * C04 *)

Lemma vmadR_affine : forall a b l, l <> [] -> vmadR (map (fun x => a * x + b) l) = Rabs a * vmadR l.
Proof.
  intros a b l Hl. unfold vmadR. rewrite vmedian_affine by exact Hl. rewrite map_map.
  assert (E : map (fun x => Rabs (a * x + b - (a * vmedian l + b))) l =
          map (fun x => Rabs a * x + 0) (map (fun x => Rabs (x - vmedian l)) l)).
  { rewrite map_map. apply map_ext. intros x. rewrite Rplus_0_r, <- Rabs_mult. f_equal; ring. }
  rewrite E, vmedian_affine by (destruct l; [congruence|discriminate]). unfold Rdiv; ring.
Qed.

Lemma vmadR_nonneg : forall l, 0 <= vmadR l.
Proof.
  intros l. unfold vmadR. apply Rmult_le_pos; [|left; apply Rinv_0_lt_compat, madcR_pos].
  destruct l as [|x l]; [cbn; unfold Rdiv; lra|].
  set (l' := map _ _). assert (Hne : l' <> []) by discriminate.
  set (M := sum_of (map Rabs l')).
  assert (H0 : Forall (fun y => 0 <= y <= M) l').
  { apply Forall_forall. intros y Hy.
    assert (Hy0 : 0 <= y) by (unfold l' in Hy; apply in_map_iff in Hy as [z [<- _]]; apply Rabs_pos).
    split; auto. unfold M. rewrite sum_of_vsum. rewrite <- (Rabs_right y) by lra.
    apply vsum_in_le; [|apply (in_map Rabs), Hy].
    apply Forall_forall. intros z Hz. apply in_map_iff in Hz as [w [<- _]]; apply Rabs_pos. }
  apply (vmedian_bounds l' 0 M) in H0; auto. apply H0.
Qed.

Lemma C04_median_mad_l : forall (env : prep_env R) n p X,
  is_matrix n p X -> (2 <= n)%nat -> (1 <= p)%nat ->
  exists st Xs sc, sc_fit_transform env (new_scaler CMedian SMad 0) (A2 X) = (st, Ok Xs) /\
    is_matrix n p Xs /\ a_scale st = Some sc /\
    forall j, (j < p)%nat ->
      is_median (column j Xs) 0 /\
      is_mad madcR (column j X) (nth j sc 0) /\
      (nth j sc 0 <> 0 -> is_mad madcR (column j Xs) 1).
Proof.
  intros env n p X Hwf Hn Hp.
  assert (Hnc : ncols X = p) by (apply (wf_ncols n p); auto; lia).
  destruct (fit_transform_cells env CMedian SMad 0 n p X (median X) (mad X))
    as [st [Xs [E [Hw [_ [Esc Hc]]]]]]; auto; try lra.
  - rewrite median_length; exact Hnc.
  - apply (mad_length n p); auto; lia.
  - exists st, Xs, (mad X). split; [exact E|]. split; [exact Hw|]. split; [exact Esc|]. intros j Hj. rewrite (column_col j X), (column_col j Xs).
    assert (Hne : col j X <> []) by (apply (col_nonempty n p); auto; lia).
    assert (Hnes : col j Xs <> []) by (apply (col_nonempty n p); auto; lia).
    assert (Em : nth j (median X) 0 = vmedian (col j X)) by (apply (median_nth n p); auto; lia).
    assert (Es : nth j (mad X) 0 = vmadR (col j X)) by (apply (mad_nth n p); auto; lia).
    set (d := if Req_EM_T (vmadR (col j X)) 0 then 1 else vmadR (col j X)).
    assert (Hd : d <> 0) by (unfold d; destruct (Req_EM_T _ 0); [lra|assumption]).
    assert (Hcol : col j Xs = map (fun x => / d * x + - (vmedian (col j X) / d)) (col j X)).
    { apply (cols_affine_map n p); auto. intros i Hi. rewrite Hc by auto. rewrite Em, Es. reflexivity. }
    split; [|split].
    + apply is_median_iff; auto. rewrite Hcol, vmedian_affine by exact Hne. field; exact Hd.
    + rewrite Es. apply is_mad_vmad; auto.
    + rewrite Es. intros Hnz.
      assert (E1 : vmadR (col j Xs) = 1).
      { rewrite Hcol, vmadR_affine by exact Hne.
        assert (d = vmadR (col j X)) as -> by (unfold d; destruct (Req_EM_T _ 0); [contradiction|reflexivity]).
        rewrite Rabs_right; [field; exact Hnz|]. apply Rle_ge. left. apply Rinv_0_lt_compat.
        pose proof (vmadR_nonneg (col j X)). lra. }
      rewrite <- E1. apply is_mad_vmad; auto.
Qed.
