(** Missing data: the estimators over reals extended with NaN (C09). *)

From Coq Require Import Reals List Arith ZArith Bool Lia Lra Permutation Sorted.
Import ListNotations.
From Verif Require Import Num Err Vec VecR OrdR L_Mat S_Stats L_Stats M_Utils M_Preproc M_Robcent
  L_Scaling L_Scaling2.
Open Scope R_scope.

(** the non-missing values *)
Definition present (l : list XR) : list R :=
  flat_map (fun x => match x with Fin r => [r] | _ => [] end) l.
(** finite or missing *)
Definition ok_entry (x : XR) : Prop := match x with Fin _ | NaN => True | _ => False end.

Ltac xnum :=
  cbn [n0 n1 nadd nsub nmul ndiv nopp nabs nsqrt nleb nltb neqb nlit npowr ntanh nfloor Num_XR] in *.

Lemma XRleb_Fin : forall a b, XRleb (Fin a) (Fin b) = Rleb a b.
Proof.
  intros a b. unfold XRleb. cbn. destruct (Rltb a b) eqn:E1, (Reqb a b) eqn:E2, (Rleb a b) eqn:E3; auto; cbn; rcmp_all; lra.
Qed.
Lemma nnat_XR : forall k, nnat (A:=XR) k = Fin (INR k).
Proof. intros k. unfold nnat, nZ. xnum. f_equal. rewrite INR_IZR_INZ. field. Qed.
Lemma isnan_Fin : forall r, nisnan (Fin r) = false.
Proof. intros r. unfold nisnan. xnum. cbn. rewrite Reqb_refl. reflexivity. Qed.
Lemma isnan_NaN : nisnan NaN = true. Proof. reflexivity. Qed.

Lemma nonnan_present : forall l, Forall ok_entry l -> nonnan l = map Fin (present l).
Proof.
  intros l Hl. unfold nonnan, present. induction Hl as [|x l Hx Hl IH]; [reflexivity|]. cbn [filter flat_map].
  destruct x; try contradiction.
  - rewrite isnan_Fin. cbn [negb map app]. rewrite IH. reflexivity.
  - rewrite isnan_NaN. cbn [negb map app]. exact IH.
Qed.
Lemma no_nan_map_Fin : forall l, Forall ok_entry l -> vanynan l = false -> l = map Fin (present l).
Proof.
  intros l Hl. unfold vanynan, present. induction Hl as [|x l Hx Hl IH]; [reflexivity|]. cbn [existsb flat_map].
  destruct x; try contradiction.
  - rewrite isnan_Fin. cbn [orb map app]. intros E. f_equal. apply IH, E.
  - rewrite isnan_NaN. discriminate.
Qed.
Lemma present_map_Fin : forall l, present (map Fin l) = l.
Proof. intros l; unfold present; induction l as [|x l IH]; cbn; auto. rewrite IH; reflexivity. Qed.

Lemma vsum_XR : forall l, vsum (map Fin l) = Fin (vsum l).
Proof. induction l as [|x l IH]; [reflexivity|]. change (XRadd (Fin x) (vsum (map Fin l)) = Fin (x + vsum l)). rewrite IH. reflexivity. Qed.
Lemma vmean_XR : forall l, l <> [] -> vmean (map Fin l) = Fin (vmean l).
Proof.
  intros l Hl. unfold vmean at 1. rewrite vsum_XR, map_length, nnat_XR. xnum. cbn [XRdiv].
  destruct (Req_EM_T (INR (length l)) 0) as [E|E]; [apply INR_len_neq0 in Hl; contradiction|]. rewrite vmean_R. reflexivity.
Qed.
Lemma vvar_XR : forall l, l <> [] -> vvar (map Fin l) = Fin (vvar l).
Proof.
  intros l Hl. unfold vvar at 1. rewrite vmean_XR by auto. rewrite map_map.
  change (vmean (map (fun x => Fin ((x + - vmean l) * (x + - vmean l))) l) = Fin (vvar l)).
  rewrite <- (map_map (fun x => (x + - vmean l) * (x + - vmean l)) Fin). rewrite vmean_XR by (destruct l; [congruence|discriminate]).
  reflexivity.
Qed.
Lemma insert_XR : forall x l, insert (Fin x) (map Fin l) = map Fin (insert x l).
Proof.
  intros x l; induction l as [|y l IH]; [reflexivity|]. cbn [map insert]. xnum. rewrite XRleb_Fin. rnum.
  destruct (Rleb x y); cbn [map]; [reflexivity|]. rewrite IH. reflexivity.
Qed.
Lemma sort_XR : forall l, sort (map Fin l) = map Fin (sort l).
Proof.
  intros l; induction l as [|x l IH]; [reflexivity|]. change (insert (Fin x) (sort (map Fin l)) = map Fin (insert x (sort l))).
  rewrite IH. apply insert_XR.
Qed.
Lemma vmedian_XR : forall l, l <> [] -> vmedian (map Fin l) = Fin (vmedian l).
Proof.
  intros l Hl.
  assert (E : forall k, nth k (map Fin (sort l)) (Fin 0) = Fin (nth k (sort l) 0)) by (intros; apply map_nth).
  assert (H2 : forall a b, XRdiv (XRadd (Fin a) (Fin b)) (Fin (INR 2)) = Fin ((a + b) / INR 2)).
  { intros a b. cbn [XRadd XRdiv]. destruct (Req_EM_T (INR 2) 0) as [Ez|Ez]; [cbn in Ez; lra|reflexivity]. }
  transitivity (if Nat.even (length l) then XRdiv (XRadd (nth (length l / 2 - 1) (map Fin (sort l)) (Fin 0)) (nth (length l / 2) (map Fin (sort l)) (Fin 0))) (Fin (INR 2))
                else nth (length l / 2) (map Fin (sort l)) (Fin 0)).
  - rewrite <- sort_XR. rewrite <- (nnat_XR 2). replace (length l) with (length (map Fin l)) by apply map_length. destruct l as [|x l]; [congruence|]. reflexivity.
  - rewrite !E, H2. destruct l as [|x l]; [congruence|]. unfold vmedian. rewrite (nnat_R 2).
    destruct (Nat.even (length (x :: l))); reflexivity.
Qed.

Lemma present_nonempty_map : forall (f : XR -> XR) (g : R -> R) l, Forall ok_entry l ->
  (forall r, f (Fin r) = Fin (g r)) -> f NaN = NaN ->
  present (map f l) = map g (present l) /\ Forall ok_entry (map f l).
Proof.
  intros f g l Hl Hf Hn. unfold present. induction Hl as [|x l Hx Hl [IH1 IH2]]; [split; [reflexivity|constructor]|].
  cbn [map flat_map]. destruct x; try contradiction.
  - rewrite Hf. cbn [app]. rewrite IH1. split; [reflexivity|]. constructor; cbn; auto.
  - rewrite Hn. cbn [app]. rewrite IH1. split; [reflexivity|]. constructor; cbn; auto.
Qed.

(** statistic of a column, with and without the nan-aware variant *)
Definition entries_ok (X : list (list XR)) : Prop := Forall (Forall ok_entry) X.

Lemma col_entries_ok : forall X j, entries_ok X -> Forall ok_entry (col j X).
Proof.
  intros X j HX. apply Forall_forall. intros x Hx. apply in_map_iff in Hx as [r [<- Hr]].
  unfold entries_ok in HX. rewrite Forall_forall in HX. specialize (HX r Hr). rewrite Forall_forall in HX.
  destruct (Nat.lt_ge_cases j (length r)) as [H|H].
  - apply HX, nth_In, H.
  - rewrite nth_overflow by auto. cbn. exact I.
Qed.

Lemma col_no_nan : forall n p (X : list (list XR)) j, wf n p X -> (j < p)%nat -> manynan X = false -> vanynan (col j X) = false.
Proof.
  intros n p X j Hw Hj HN. unfold vanynan. apply not_true_is_false. intros E. apply existsb_exists in E as [x [Hx Ex]].
  apply in_map_iff in Hx as [r [<- Hr]].
  assert (manynan X = true); [|congruence]. apply existsb_exists. exists r. split; auto.
  apply existsb_exists. exists (nth j r n0). split; auto. apply nth_In. rewrite (wf_row n p X r Hw Hr). exact Hj.
Qed.

(** the generic pattern: the nan-aware statistic if any entry is missing, the
    plain one otherwise, equals the real statistic of the present values *)
Lemma nanstat_col : forall n p (X : list (list XR)) (F : list XR -> XR) (f : list R -> R) j, wf n p X -> entries_ok X -> (j < p)%nat ->
  (forall l, l <> [] -> F (map Fin l) = Fin (f l)) -> present (col j X) <> [] -> (0 < n)%nat ->
  nth j (if manynan X then map (fun c => F (nonnan c)) (cols X) else map F (cols X)) NaN = Fin (f (present (col j X))).
Proof.
  intros n p X F f j Hw HX Hj HF Hne Hn. pose proof (col_entries_ok X j HX) as Hc.
  destruct (manynan X) eqn:E.
  - rewrite (map_cols_nth (fun c => F (nonnan c))) by (rewrite (wf_ncols n p); auto).
    rewrite nonnan_present by auto. apply HF, Hne.
  - rewrite (map_cols_nth F) by (rewrite (wf_ncols n p); auto).
    rewrite (no_nan_map_Fin _ Hc (col_no_nan n p X j Hw Hj E)) at 1. apply HF, Hne.
Qed.

Lemma median_XR : forall n p X j, wf n p X -> entries_ok X -> (0 < n)%nat -> (j < p)%nat -> present (col j X) <> [] ->
  nth j (median X) NaN = Fin (vmedian (present (col j X))).
Proof. intros n p X j Hw HX Hn Hj Hne. apply (nanstat_col n p X vmedian vmedian j); auto. apply vmedian_XR. Qed.

Lemma median_length_XR : forall (X : list (list XR)), length (median X) = ncols X.
Proof. intros X. unfold median. destruct (manynan X); rewrite map_length, cols_length; reflexivity. Qed.

(** column of the spec: default NaN *)
Definition xcolumn (j : nat) (X : list (list XR)) : list XR := map (fun r => nth j r NaN) X.
Definition is_xmatrix (n p : nat) (X : list (list XR)) : Prop := length X = n /\ Forall (fun r => length r = p) X.
Lemma xcolumn_col : forall n p X j, wf n p X -> (j < p)%nat -> xcolumn j X = col j X.
Proof.
  intros n p X j Hw Hj. unfold xcolumn, col. apply map_ext_in. intros r Hr. apply nth_indep.
  rewrite (wf_row n p X r Hw Hr). exact Hj.
Qed.

Lemma mad_XR : forall n p X j, wf n p X -> entries_ok X -> (0 < n)%nat -> (j < p)%nat -> 
  (forall k, (k < p)%nat -> present (col k X) <> []) ->
  nth j (mad X) NaN = Fin (vmadR (present (col j X))).
Proof.
  intros n p X j Hw HX Hn Hj Hne. unfold mad, mad_with.
  assert (Hlm : length (median X) = p) by (rewrite median_length_XR; apply (wf_ncols n p); auto).
  set (Y := map (map nabs) (rows_op nsub X (median X))).
  assert (HwY : wf n p Y) by (apply wf_mapmap, wf_map2_rows; auto).
  rewrite (nth_map_lt _ _ _ NaN) by (rewrite median_length_XR, (wf_ncols n p); auto).
  assert (Hmk : forall k, (k < p)%nat -> nth k (median X) n0 = Fin (vmedian (present (col k X)))).
  { intros k Hk. rewrite <- (median_XR n p X k) by auto. apply nth_indep. lia. }
  assert (Ecol : forall k, (k < p)%nat -> col k Y = map (fun x => XRabs (XRsub x (Fin (vmedian (present (col k X)))))) (col k X)).
  { intros k Hk. unfold Y. rewrite (col_mapmap n p); [|apply wf_map2_rows; auto|auto]. unfold rows_op.
    rewrite (col_map2_rows n p) by auto. rewrite map_map. rewrite Hmk by auto. reflexivity. }
  assert (Hpres : forall k, (k < p)%nat -> present (col k Y) = map (fun x => Rabs (x - vmedian (present (col k X)))) (present (col k X))
                 /\ Forall ok_entry (col k Y)).
  { intros k Hk. rewrite Ecol by auto. apply present_nonempty_map; auto. apply col_entries_ok, HX. }
  assert (HYok : entries_ok Y).
  { unfold entries_ok. apply Forall_forall. intros r Hr. apply Forall_forall. intros x Hx.
    apply (In_nth _ _ []) in Hr as [i [Hi <-]]. apply (In_nth _ _ n0) in Hx as [k [Hk <-]].
    rewrite (wf_length _ _ _ HwY) in Hi. rewrite (wf_nth_row n p) in Hk by auto.
    destruct (Hpres k Hk) as [_ HF]. rewrite Forall_forall in HF. apply HF.
    change (nth k (nth i Y []) n0) with (mget Y i k). rewrite <- nth_col. apply nth_In. rewrite col_length, (wf_length _ _ _ HwY). exact Hi. }
  destruct (Hpres j Hj) as [Ep _].
  rewrite (median_XR n p Y j); auto.
  - rewrite Ep. xnum. unfold mad_c. xnum. cbn [XRdiv]. unfold vmadR, madcR.
    destruct (Req_EM_T (6744897501960817 / 10000000000000000) 0); [lra|]. reflexivity.
  - rewrite Ep. specialize (Hne j Hj). destruct (present (col j X)); [congruence|discriminate].
Qed.

Definition XRstat_c (c : centre_opt XR) : Prop := c = CMean \/ c = CMedian.

Lemma C09_missing_l : forall (env : prep_env XR) c s n p X,
  is_xmatrix n p X -> entries_ok X -> (2 <= n)%nat ->
  (c = CMean \/ c = CMedian) -> (s = SStd \/ s = SMad) ->
  (forall j, (j < p)%nat -> present (xcolumn j X) <> []) ->
  exists st m v, sc_fit env (new_scaler c s (Fin 0)) (A2 X) = (st, Ok tt) /\
    a_center st = Some m /\ a_scale st = Some v /\ length m = p /\ length v = p /\
    forall j, (j < p)%nat ->
      (c = CMean -> nth j m NaN = Fin (mean_of (present (xcolumn j X)))) /\
      (c = CMedian -> exists q, nth j m NaN = Fin q /\ is_median (present (xcolumn j X)) q) /\
      (s = SStd -> nth j v NaN = Fin (sqrt (variance_of (present (xcolumn j X))))) /\
      (s = SMad -> exists q, nth j v NaN = Fin q /\ is_mad madcR (present (xcolumn j X)) q).
Proof.
  intros env c s n p X Hw HX Hn Hc Hs Hpres0.
  assert (Hnc : ncols X = p) by (apply (wf_ncols n p); auto; lia).
  assert (Hpres : forall j, (j < p)%nat -> present (col j X) <> []).
  { intros j Hj. rewrite <- (xcolumn_col n p) by auto. auto. }
  assert (Hx0 : XReqb (Fin 0) (Fin 0) = true) by (cbn; apply Reqb_refl).
  set (M := if manynan X then map nanmean (cols X) else map vmean (cols X)).
  set (V := map XRsqrt (if manynan X then map nanvar (cols X) else map vvar (cols X))).
  assert (EM : mean X (Fin 0) = Ok M) by (unfold mean; xnum; rewrite Hx0; reflexivity).
  assert (EV : std X (Fin 0) = Ok V) by (unfold std; xnum; rewrite Hx0; reflexivity).
  assert (HlM : length M = p) by (unfold M; destruct (manynan X); rewrite map_length, cols_length; auto).
  assert (HlV : length V = p) by (unfold V; rewrite map_length; destruct (manynan X); rewrite map_length, cols_length; auto).
  assert (HM : forall j, (j < p)%nat -> nth j M NaN = Fin (vmean (present (col j X)))).
  { intros j Hj. apply (nanstat_col n p X vmean vmean j); auto; [apply vmean_XR|lia]. }
  assert (HV : forall j, (j < p)%nat -> nth j V NaN = Fin (sqrt (vvar (present (col j X))))).
  { intros j Hj. unfold V. rewrite (nth_map_lt _ _ _ NaN).
    - change (XRsqrt (nth j (if manynan X then map (fun c => vvar (nonnan c)) (cols X) else map vvar (cols X)) NaN) = Fin (sqrt (vvar (present (col j X))))).
      rewrite (nanstat_col n p X vvar vvar j); auto; [|apply vvar_XR|lia]. cbn [XRsqrt].
      pose proof (vvar_nonneg (present (col j X))). destruct (Rlt_dec (vvar (present (col j X))) 0); [lra|reflexivity].
    - destruct (manynan X); rewrite map_length, cols_length; lia. }
  assert (Hck : check_trimming (Fin 0) = Ok tt).
  { unfold check_trimming, raise_if. xnum. cbn [XRltb].
    destruct (Rltb (99 / 100) 0) eqn:E1; [rcmp_all; lra|]. destruct (Rltb 0 0) eqn:E2; [rcmp_all; lra|]. reflexivity. }
  set (m := match c with CMean => M | _ => median X end).
  set (v := match s with SStd => V | _ => mad X end).
  assert (Hlm : length m = p).
  { unfold m. destruct Hc as [->| ->]; auto. rewrite median_length_XR. auto. }
  assert (Hlv : length v = p).
  { unfold v. destruct Hs as [->| ->]; auto. unfold mad, mad_with. rewrite map_length, median_length_XR.
    apply (wf_ncols n p); [|lia]. apply wf_mapmap, wf_map2_rows; auto. rewrite median_length_XR; auto. }
  eexists; exists m, v. split; [apply (fit_ok_intro env (new_scaler c s (Fin 0)) (A2 X) m v)|].
  - rewrite (check_input_id n p) by auto. unfold m. destruct Hc as [->| ->]; cbn [location new_scaler sc_center sc_trimming]; auto.
  - rewrite (check_input_id n p) by auto. unfold v. destruct Hs as [->| ->]; cbn [scale_est new_scaler sc_scale sc_trimming]; auto.
  - exact Hck.
  - destruct Hc as [->| ->], Hs as [->| ->]; reflexivity.
  - cbn [a_center a_scale]. repeat split; auto.
    + intros ->. rewrite (xcolumn_col n p), mean_of_vmean by auto. apply HM; auto.
    + intros ->. exists (vmedian (present (col j X))). rewrite (xcolumn_col n p) by auto. split.
      * apply (median_XR n p); auto; lia.
      * apply is_median_vmedian; auto.
    + intros ->. rewrite (xcolumn_col n p), variance_of_vvar by auto. apply HV; auto.
    + intros ->. exists (vmadR (present (col j X))). rewrite (xcolumn_col n p) by auto. split.
      * apply (mad_XR n p); auto; lia.
      * apply is_mad_vmad; auto.
Qed.
