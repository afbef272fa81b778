(** Property theorems C01-C08 and C10-C13: VersatileScaler. *)

From Coq Require Import Reals QArith List Arith ZArith Bool Lia Lra Permutation Sorted.
Import ListNotations.
From Verif Require Import Num Err Vec VecR OrdR L_Mat S_Stats L_Stats M_Utils M_Preproc M_Robcent
  L_Scaling L_Scaling2.
Open Scope R_scope.

(** environment used in concrete cases: the optimiser returns its start *)
Definition env0 : prep_env R := {| env_l1opt := fun _ x => x; env_es2 := 1 |}.
Definition envQ : prep_env Q := {| env_l1opt := fun _ x => x; env_es2 := 1%Q |}.

(** the data used in the concrete cases *)
Definition X3 : list (list R) := [[1; 2]; [3; 5]; [4; 9]].
Lemma X3_matrix : is_matrix 3 2 X3.
Proof. split; [reflexivity|repeat constructor]. Qed.
Lemma X3_fit : forall c s, plain_centre c -> plain_scale s ->
  exists st, sc_fit env0 (new_scaler c s 0) (A2 X3) = (st, Ok tt).
Proof.
  intros c s Hc Hs. apply (fit_succeeds env0 c s 0 3 2); auto; try lra; [apply X3_matrix|].
  intros g Hg. assert (H : INR g < INR 1) by (cbn; lra). apply INR_lt in H. lia.
Qed.

(* ------------------------------------------------------------------ *)
(** C01 *)

Theorem C01_transform_cells : forall (st : scaler R) n p X m s,
  is_matrix n p X -> (2 <= n)%nat -> (1 <= p)%nat ->
  a_center st = Some m -> a_scale st = Some s -> length m = p -> length s = p ->
  exists Xs, snd (sc_transform st (A2 X)) = Ok Xs /\ is_matrix n p Xs /\
    forall i j, (i < n)%nat -> (j < p)%nat ->
      standardised (cell X i j) (nth j m 0) (nth j s 0) (cell Xs i j).
Proof. exact C01_transform_cells_l. Qed.
Print Assumptions C01_transform_cells.

Theorem C01_predict_cells : forall (st : scaler R) n p X m s,
  is_matrix n p X -> (2 <= n)%nat -> (1 <= p)%nat ->
  a_col_loc st = Some m -> a_col_sca st = Some s -> length m = p -> length s = p ->
  exists Xs, snd (sc_predict st (A2 X)) = Ok Xs /\ is_matrix n p Xs /\
    forall i j, (i < n)%nat -> (j < p)%nat ->
      standardised (cell X i j) (nth j m 0) (nth j s 0) (cell Xs i j).
Proof. exact C01_predict_cells_l. Qed.
Print Assumptions C01_predict_cells.

(** a successful fit on n x p data stores p centres and p scales, the same
    under both pairs of attribute names *)
Theorem C01_fit_lengths : forall (env : prep_env R) st st' n p X,
  is_matrix n p X -> (2 <= n)%nat ->
  (sc_center st = CMean \/ sc_center st = CMedian \/ sc_center st = CNone) ->
  (sc_scale st = SStd \/ sc_scale st = SMad \/ sc_scale st = STau2 \/ sc_scale st = SNone) ->
  sc_fit env st (A2 X) = (st', Ok tt) ->
  exists m s, a_center st' = Some m /\ a_col_loc st' = Some m /\
              a_scale st' = Some s /\ a_col_sca st' = Some s /\ length m = p /\ length s = p.
Proof. exact C01_fit_lengths_l. Qed.
Print Assumptions C01_fit_lengths.

Theorem C01_fit_transform : forall (env : prep_env R) (st st' : scaler R) x Xs,
  sc_fit_transform env st x = (st', Ok Xs) <->
  exists st1, sc_fit env st x = (st1, Ok tt) /\ sc_transform st1 x = (st', Ok Xs).
Proof. intros env. exact (C01_fit_transform_l env). Qed.
Print Assumptions C01_fit_transform.

Example C01_case : exists st, sc_fit env0 (new_scaler CMean SStd 0) (A2 X3) = (st, Ok tt) /\
  exists m s, a_center st = Some m /\ a_scale st = Some s /\ length m = 2%nat /\ length s = 2%nat.
Proof.
  destruct (X3_fit CMean SStd) as [st E]; [left; auto|left; auto|]. exists st; split; auto.
  destruct (C01_fit_lengths env0 (new_scaler CMean SStd 0) st 3 2 X3 X3_matrix ltac:(lia) (or_introl eq_refl) (or_introl eq_refl) E)
    as [m [s [H1 [_ [H2 [_ [H3 H4]]]]]]]. eauto 6.
Qed.

(* ------------------------------------------------------------------ *)
(** C02 *)

Theorem C02_roundtrip_iff : forall (st : scaler R) n p X m s,
  is_matrix n p X -> (2 <= n)%nat -> (1 <= p)%nat ->
  a_center st = Some m -> a_scale st = Some s -> length m = p -> length s = p ->
  exists Xs Xb, snd (sc_transform st (A2 X)) = Ok Xs /\
    snd (sc_inverse_transform st (Some (A2 Xs))) = Ok Xb /\
    (Xb = X <-> forall j, (j < p)%nat -> nth j s 0 = 0 -> forall i, (i < n)%nat -> cell X i j = nth j m 0).
Proof. exact C02_roundtrip_iff_l. Qed.
Print Assumptions C02_roundtrip_iff.

(** median/MAD scaling of a column of zeros with one 5: the round trip on the
    training data itself returns something else *)
Theorem C02_roundtrip_refuted : exists (X Xs Xb : list (list Q)) st,
  sc_fit_transform envQ (new_scaler CMedian SMad 0%Q) (A2 X) = (st, Ok Xs) /\
  snd (sc_inverse_transform st (Some (A2 Xs))) = Ok Xb /\ Xb <> X.
Proof.
  exists [[0; 1]; [0; 2]; [0; 4]; [5; 6]]%Q. do 3 eexists. split; [vm_compute; reflexivity|].
  split; [vm_compute; reflexivity|]. discriminate.
Qed.
Print Assumptions C02_roundtrip_refuted.

(* ------------------------------------------------------------------ *)
(** C03 *)

Theorem C03_mean_std : forall (env : prep_env R) n p X,
  is_matrix n p X -> (2 <= n)%nat -> (1 <= p)%nat ->
  exists st Xs, sc_fit_transform env (new_scaler CMean SStd 0) (A2 X) = (st, Ok Xs) /\ is_matrix n p Xs /\
    forall j, (j < p)%nat ->
      mean_of (column j Xs) = 0 /\
      (constant_list (column j X) -> forall i, (i < n)%nat -> cell Xs i j = 0) /\
      (~ constant_list (column j X) -> variance_of (column j Xs) = 1).
Proof. exact C03_mean_std_l. Qed.
Print Assumptions C03_mean_std.

Example C03_case : is_matrix 3 2 [[1; 7]; [3; 7]; [4; 7]] /\
  ~ constant_list (column 0 [[1; 7]; [3; 7]; [4; 7]]) /\ constant_list (column 1 [[1; 7]; [3; 7]; [4; 7]]).
Proof.
  split; [split; [reflexivity|repeat constructor]|]. cbn. split.
  - intros H. assert (1 = 3) by (apply H; cbn; auto). lra.
  - intros x y [<-|[<-|[<-|[]]]] [<-|[<-|[<-|[]]]]; reflexivity.
Qed.

(* ------------------------------------------------------------------ *)
(** C04 *)

Theorem C04_median_mad : forall (env : prep_env R) n p X,
  is_matrix n p X -> (2 <= n)%nat -> (1 <= p)%nat ->
  exists st Xs sc, sc_fit_transform env (new_scaler CMedian SMad 0) (A2 X) = (st, Ok Xs) /\
    is_matrix n p Xs /\ a_scale st = Some sc /\
    forall j, (j < p)%nat ->
      is_median (column j Xs) 0 /\
      is_mad madcR (column j X) (nth j sc 0) /\
      (nth j sc 0 <> 0 -> is_mad madcR (column j Xs) 1).
Proof. exact C04_median_mad_l. Qed.
Print Assumptions C04_median_mad.

(** a column with non-zero MAD: 1, 3, 4 has median 3 and MAD 1/c *)
Example C04_case : is_mad madcR (column 0 X3) (1 / madcR) /\ 1 / madcR <> 0.
Proof.
  split.
  - exists 3, 1. split; [|split; [|reflexivity]].
    + exists [1; 3; 4]. cbn. split; [reflexivity|]. split; [repeat constructor; lra|]. split; [discriminate|lra].
    + cbn. exists [0; 1; 2]. 
      replace (Rabs (1 - 3)) with 2 by (rewrite Rabs_left; lra).
      replace (Rabs (3 - 3)) with 0 by (rewrite Rminus_diag_eq, Rabs_R0; auto).
      replace (Rabs (4 - 3)) with 1 by (rewrite Rabs_right; lra).
      split; [|split; [repeat constructor; lra|split; [discriminate|cbn; lra]]].
      transitivity [0; 2; 1]; [constructor|]. constructor. constructor.
  - pose proof madcR_pos. unfold Rdiv. rewrite Rmult_1_l. apply Rinv_neq_0_compat; lra.
Qed.

(* ------------------------------------------------------------------ *)
(** C05.  [k], [k'] range over the columns of two data sets that share nothing
    but the relation between these two columns: the estimates of a column
    depend on that column only. *)

Theorem C05_affine_equivariance : forall (env : prep_env R) c s t n p p' X X' k k' a b st st',
  is_matrix n p X -> is_matrix n p' X' -> (2 <= n)%nat -> (k < p)%nat -> (k' < p')%nat ->
  (c = CMean \/ c = CMedian) -> (s = SStd \/ s = SMad) ->
  (forall g, INR g <= t * INR n < INR g + 1 -> (2 * g < n)%nat) ->
  column k' X' = map (fun x => a * x + b) (column k X) ->
  sc_fit env (new_scaler c s t) (A2 X) = (st, Ok tt) ->
  sc_fit env (new_scaler c s t) (A2 X') = (st', Ok tt) ->
  exists m v m' v', a_center st = Some m /\ a_scale st = Some v /\ a_center st' = Some m' /\ a_scale st' = Some v' /\
    nth k' m' 0 = a * nth k m 0 + b /\ nth k' v' 0 = Rabs a * nth k v 0.
Proof. exact C05_equivariance_l. Qed.
Print Assumptions C05_affine_equivariance.

(** the estimation succeeds for every such trimming fraction *)
Theorem C05_fit_succeeds : forall (env : prep_env R) c s t n p X,
  is_matrix n p X -> (2 <= n)%nat -> plain_centre c -> plain_scale s -> 0 <= t <= 99/100 ->
  (forall g, INR g <= t * INR n < INR g + 1 -> (2 * g <= n)%nat) ->
  exists st, sc_fit env (new_scaler c s t) (A2 X) = (st, Ok tt).
Proof. exact fit_succeeds. Qed.
Print Assumptions C05_fit_succeeds.

(** 20% trimming of five cases: g = 1 *)
Example C05_case : exists X X' st st', is_matrix 5 1 X /\ is_matrix 5 1 X' /\
  column 0 X' = map (fun x => -2 * x + 1) (column 0 X) /\
  (forall g, INR g <= 1/5 * INR 5 < INR g + 1 -> (2 * g < 5)%nat) /\
  sc_fit env0 (new_scaler CMean SStd (1/5)) (A2 X) = (st, Ok tt) /\
  sc_fit env0 (new_scaler CMean SStd (1/5)) (A2 X') = (st', Ok tt).
Proof.
  set (X := [[1]; [3]; [4]; [6]; [100]]). set (X' := [[-1]; [-5]; [-7]; [-11]; [-199]]).
  assert (Hg : forall g, INR g <= 1/5 * INR 5 < INR g + 1 -> (2 * g < 5)%nat).
  { intros g Hg. replace (1/5 * INR 5) with 1 in Hg by (cbn; field).
    assert (H : INR g < INR 2) by (cbn; lra). apply INR_lt in H. lia. }
  assert (HX : is_matrix 5 1 X) by (split; [reflexivity|repeat constructor]).
  assert (HX' : is_matrix 5 1 X') by (split; [reflexivity|repeat constructor]).
  destruct (fit_succeeds env0 CMean SStd (1/5) 5 1 X HX) as [st E]; try lia; try (left; auto; fail); try lra.
  { intros g H. specialize (Hg g H). lia. }
  destruct (fit_succeeds env0 CMean SStd (1/5) 5 1 X' HX') as [st' E']; try lia; try (left; auto; fail); try lra.
  { intros g H. specialize (Hg g H). lia. }
  exists X, X', st, st'. repeat split; auto; try apply HX; try apply HX'.
  cbn. repeat (f_equal; try lra).
Qed.

(* ------------------------------------------------------------------ *)
(** C06 *)

Theorem C06_row_order : forall (env : prep_env R) c s t n p X Y,
  is_matrix n p X -> (2 <= n)%nat -> Permutation X Y ->
  (c = CMean \/ c = CMedian \/ c = CNone) -> (s = SStd \/ s = SMad \/ s = SNone) ->
  sc_fit env (new_scaler c s t) (A2 X) = sc_fit env (new_scaler c s t) (A2 Y).
Proof. exact C06_row_order_l. Qed.
Print Assumptions C06_row_order.

Example C06_case : Permutation X3 [[4; 9]; [1; 2]; [3; 5]] /\ X3 <> [[4; 9]; [1; 2]; [3; 5]].
Proof.
  split.
  - unfold X3. symmetry. transitivity [[1; 2]; [4; 9]; [3; 5]]; [constructor|]. constructor. constructor.
  - unfold X3. intros H. injection H. intros. lra.
Qed.

(* ------------------------------------------------------------------ *)
(** C07 *)

Theorem C07_rejected : forall (env : prep_env R) st x, (sc_trimming st < 0 \/ 99/100 < sc_trimming st) ->
  sc_fit env st x = (st, Err ValueError).
Proof. exact C07_rejected_l. Qed.
Print Assumptions C07_rejected.

(** more than half trimmed at each end: an exception (NameError if the scale
    option is an unknown name) *)
Theorem C07_too_much : forall (env : prep_env R) s t n p X g,
  is_matrix n p X -> (2 <= n)%nat -> (1 <= p)%nat -> 0 < t -> INR g <= t * INR n < INR g + 1 -> (n < 2 * g)%nat ->
  exists st', sc_fit env (new_scaler CMean s t) (A2 X) = (st', Err ValueError) \/
              sc_fit env (new_scaler CMean s t) (A2 X) = (st', Err NameError).
Proof. exact C07_too_much_l. Qed.
Print Assumptions C07_too_much.

(** with a documented scale it is always the ValueError *)
Theorem C07_too_much_documented : forall (env : prep_env R) s t n p X g,
  is_matrix n p X -> (2 <= n)%nat -> (1 <= p)%nat -> 0 < t -> INR g <= t * INR n < INR g + 1 -> (n < 2 * g)%nat ->
  (s = SStd \/ s = SMad \/ s = STau2 \/ s = SNone) ->
  exists st', sc_fit env (new_scaler CMean s t) (A2 X) = (st', Err ValueError).
Proof.
  intros env s t n p X g HX Hn Hp Ht Hg Hng Hs.
  assert (Hb : is_bad CMean s = false) by (destruct Hs as [->|[->|[->| ->]]]; reflexivity).
  unfold sc_fit. cbn [new_scaler sc_center sc_scale sc_trimming]. rewrite Hb.
  destruct (check_trimming t) as [[]|e] eqn:E.
  - rewrite (check_input_id n p) by auto.
    assert (Em : location env CMean t X = Err ValueError).
    { cbn [location]. unfold mean. rnum. unfold Reqb. destruct (Req_EM_T t 0); [lra|].
      unfold cols. rewrite (wf_ncols n p) by (auto; lia). destruct p as [|p]; [lia|]. cbn [seq map mapM].
      rewrite trim_mean1_R, col_length, (wf_length _ _ _ HX).
      rewrite (proj2 (tcut_iff t n g ltac:(lra)) Hg). destruct (Nat.ltb_spec n (2 * g)); [reflexivity|lia]. }
    rewrite Em. eexists; reflexivity.
  - unfold check_trimming, raise_if in E. destruct (_ : bool) in E; [injection E as <-|discriminate].
    eexists; reflexivity.
Qed.
Print Assumptions C07_too_much_documented.

Theorem C07_trimmed_mean : forall (env : prep_env R) s t n p X g st,
  is_matrix n p X -> (2 <= n)%nat -> plain_scale s -> t <> 0 -> INR g <= t * INR n < INR g + 1 ->
  sc_fit env (new_scaler CMean s t) (A2 X) = (st, Ok tt) ->
  exists m, a_center st = Some m /\ length m = p /\
    ((2 * g <= n)%nat \/ p = 0%nat) /\
    forall j, (j < p)%nat -> is_trimmed_mean g (column j X) (nth j m 0).
Proof. exact C07_trimmed_mean_l. Qed.
Print Assumptions C07_trimmed_mean.

Example C07_case : exists g, INR g <= 3/5 * INR 3 < INR g + 1 /\ INR 2 <= 3/4 * INR 3 < INR 2 + 1.
Proof. exists 1%nat. cbn. lra. Qed.

(* ------------------------------------------------------------------ *)
(** C08 *)

(** [last_fit] gives the parameters in force at, and the data of, the last fit *)
Theorem C08_history : forall (env : prep_env R) c s t os, fits_succeed env (new_scaler c s t) os ->
    let st := sc_run env (new_scaler c s t) os in
    match last_fit (c, s, t) None os with
    | None => a_center st = None /\ a_col_loc st = None /\ a_scale st = None /\ a_col_sca st = None /\
              (forall x, sc_transform st x = (st, Err NotFittedError)) /\
              (forall x, sc_inverse_transform st x = (st, Err NotFittedError)) /\
              (forall x, sc_predict st x = (st, Err AttributeError))
    | Some ((c', s', t'), x) =>
        exists st' m v, sc_fit env (new_scaler c' s' t') x = (st', Ok tt) /\
          a_center st' = Some m /\ a_scale st' = Some v /\
          a_center st = Some m /\ a_col_loc st = Some m /\ a_scale st = Some v /\ a_col_sca st = Some v
    end.
Proof. intros env. exact (C08_history_l env). Qed.
Print Assumptions C08_history.

(** without the hypothesis: a fit that raises leaves the centre of the new data
    next to the scale of the old data *)
Theorem C08_failed_fit_refuted : exists (X1 X2 : list (list Q)) st1 st2 m1 s1 m2,
  sc_fit envQ (new_scaler CMedian SStd 0%Q) (A2 X1) = (st1, Ok tt) /\
  sc_fit envQ (sc_set_params st1 None None (Some (4#5)%Q)) (A2 X2) = (st2, Err ValueError) /\
  a_center st1 = Some m1 /\ a_scale st1 = Some s1 /\
  a_center st2 = Some m2 /\ a_scale st2 = Some s1 /\ m1 <> m2.
Proof.
  exists [[1]; [2]; [3]]%Q, [[10]; [20]; [30]]%Q. do 5 eexists.
  split; [vm_compute; reflexivity|]. split; [vm_compute; reflexivity|].
  split; [reflexivity|]. split; [reflexivity|]. split; [reflexivity|]. split; [reflexivity|]. discriminate.
Qed.
Print Assumptions C08_failed_fit_refuted.

Example C08_case : fits_succeed env0 (new_scaler CMean SStd 0)
  [OpFit (A2 X3); OpTransform (A2 [[1; 1]; [2; 2]]); OpPredict (A2 X3)] /\
  last_fit (CMean, SStd, 0) None
    [OpFit (A2 X3); OpTransform (A2 [[1; 1]; [2; 2]]); OpPredict (A2 X3)] = Some ((CMean, SStd, 0), A2 X3).
Proof.
  split; [|reflexivity]. intros os1 o os2 x E Ho.
  destruct (X3_fit CMean SStd) as [st Ef]; [left; auto|left; auto|].
  destruct os1 as [|o1 [|o2 [|o3 [|o4 os1]]]]; cbn in E; inversion E; subst; try (destruct Ho; congruence).
  destruct Ho as [Ho|Ho]; inversion Ho; subst. cbn [sc_run fold_left]. rewrite Ef. reflexivity.
Qed.

(* ------------------------------------------------------------------ *)
(** C10 *)

(** what transform does to a single row of p >= 2 values: a p x 1 column, every
    entry standardised with the first column's centre and scale *)
Theorem C10_single_row : forall (st : scaler R) r m s p,
  length r = p -> (2 <= p)%nat -> a_center st = Some m -> a_scale st = Some s -> length m = p -> length s = p ->
  exists Xs, snd (sc_transform st (A2 [r])) = Ok Xs /\ is_matrix p 1 Xs /\
    forall j, (j < p)%nat -> standardised (nth j r 0) (nth 0 m 0) (nth 0 s 0) (cell Xs j 0).
Proof. exact C10_single_row_l. Qed.
Print Assumptions C10_single_row.

Theorem C10_single_row_refuted : exists (X : list (list Q)) st r Xs,
  sc_fit envQ (new_scaler CMean SNone 0%Q) (A2 X) = (st, Ok tt) /\
  a_center st = Some [2; 20]%Q /\
  snd (sc_transform st (A2 [r])) = Ok Xs /\ r = [2; 20]%Q /\
  Xs <> [[0; 0]]%Q /\ Xs <> [[0]; [0]]%Q.
Proof.
  exists [[1; 10]; [3; 30]]%Q. eexists. exists [2; 20]%Q. eexists.
  split; [vm_compute; reflexivity|]. split; [reflexivity|]. split; [vm_compute; reflexivity|].
  split; [reflexivity|]. split; discriminate.
Qed.
Print Assumptions C10_single_row_refuted.

(* ------------------------------------------------------------------ *)
(** C11 *)

Theorem C11_median_breakdown : forall (env : prep_env R) s t n p X' j l k a b st,
  is_matrix n p X' -> (2 <= n)%nat -> (j < p)%nat -> plain_scale s ->
  sc_fit env (new_scaler CMedian s t) (A2 X') = (st, Ok tt) ->
  differ_at_most k l (column j X') -> (2 * k < n)%nat -> bounds_common a b l (column j X') ->
  exists m, a_center st = Some m /\ a <= nth j m 0 <= b.
Proof. exact C11_median_l. Qed.
Print Assumptions C11_median_breakdown.

Lemma differ_case : differ_at_most 1 [1; 3; 1000] (column 0 X3) /\ bounds_common 1 3 [1; 3; 1000] (column 0 X3).
Proof.
  split.
  - split; [reflexivity|]. cbn. destruct (Req_EM_T 1 1); [|lra]. destruct (Req_EM_T 3 3); [|lra].
    destruct (Req_EM_T 1000 4); cbn; lia.
  - intros i Hi E. destruct i as [|[|[|i]]]; cbn in *; try lra; lia.
Qed.

Example C11_case : exists st, sc_fit env0 (new_scaler CMedian SMad 0) (A2 X3) = (st, Ok tt) /\
  differ_at_most 1 [1; 3; 1000] (column 0 X3) /\ (2 * 1 < 3)%nat /\ bounds_common 1 3 [1; 3; 1000] (column 0 X3).
Proof.
  destruct (X3_fit CMedian SMad) as [st E]; [right; left; auto|right; left; auto|].
  exists st; split; auto. split; [apply differ_case|]. split; [lia|apply differ_case].
Qed.

(* ------------------------------------------------------------------ *)
(** C12 *)

Theorem C12_mad_breakdown : forall (env : prep_env R) c t n p X' j l k a b st,
  is_matrix n p X' -> (2 <= n)%nat -> (j < p)%nat -> plain_centre c ->
  sc_fit env (new_scaler c SMad t) (A2 X') = (st, Ok tt) ->
  differ_at_most k l (column j X') -> (2 * k < n)%nat -> bounds_common a b l (column j X') ->
  exists v, a_scale st = Some v /\ 0 <= nth j v 0 <= (b - a) / madcR.
Proof. exact C12_mad_bound_l. Qed.
Print Assumptions C12_mad_breakdown.

Theorem C12_mad_zero_iff : forall (env : prep_env R) c t n p X j st,
  is_matrix n p X -> (2 <= n)%nat -> (j < p)%nat -> plain_centre c ->
  sc_fit env (new_scaler c SMad t) (A2 X) = (st, Ok tt) ->
  exists v, a_scale st = Some v /\ 0 <= nth j v 0 /\
    forall m, is_median (column j X) m ->
      (nth j v 0 = 0 <-> (n < 2 * length (filter (fun x => if Req_EM_T x m then true else false) (column j X)))%nat).
Proof. exact C12_mad_zero_l. Qed.
Print Assumptions C12_mad_zero_iff.

Example C12_case : exists st, sc_fit env0 (new_scaler CMedian SMad 0) (A2 X3) = (st, Ok tt) /\
  is_median (column 0 X3) 3.
Proof.
  destruct (X3_fit CMedian SMad) as [st E]; [right; left; auto|right; left; auto|].
  exists st; split; auto. exists [1; 3; 4]. cbn.
  split; [reflexivity|]. split; [repeat constructor; lra|]. split; [discriminate|lra].
Qed.

(* ------------------------------------------------------------------ *)
(** C13 *)

Theorem C13_trimmed_mean_bulk : forall (env : prep_env R) s t n p X' j g l st,
  is_matrix n p X' -> (2 <= n)%nat -> (j < p)%nat -> plain_scale s -> t <> 0 ->
  INR g <= t * INR n < INR g + 1 -> (2 * g < n)%nat ->
  sc_fit env (new_scaler CMean s t) (A2 X') = (st, Ok tt) ->
  exists m, a_center st = Some m /\
    (forall lo hi, is_order_stat (column j X') g lo -> is_order_stat (column j X') (n - 1 - g) hi -> lo <= nth j m 0 <= hi) /\
    (forall a b, differ_at_most g l (column j X') -> bounds_common a b l (column j X') -> a <= nth j m 0 <= b).
Proof. exact C13_trimmed_l. Qed.
Print Assumptions C13_trimmed_mean_bulk.

Example C13_case : exists st, INR 1 <= 2/5 * INR 3 < INR 1 + 1 /\
  sc_fit env0 (new_scaler CMean SStd (2/5)) (A2 X3) = (st, Ok tt) /\
  differ_at_most 1 [1; 3; 1000] (column 0 X3) /\ bounds_common 1 3 [1; 3; 1000] (column 0 X3).
Proof.
  destruct (fit_succeeds env0 CMean SStd (2/5) 3 2 X3 X3_matrix) as [st E]; try lia; try (left; auto; fail); try lra.
  { intros g Hg. assert (H : INR g < INR 2) by (cbn in *; lra). apply INR_lt in H. lia. }
  exists st. split; [cbn; lra|]. split; auto. apply differ_case.
Qed.
