(** Every case counted k times: moments and distance covariance. *)

From Coq Require Import String Reals List Arith ZArith Bool Lia Lra Permutation.
Import List. Import ListNotations.
From Verif Require Import Num Err Vec VecR OrdR L_Mat L_Lin L_Matmul S_Stats L_Stats S_Order S_Vars S_Copies L_Order M_Utils M_Preproc M_Robcent M_Dicomo S_Dicomo
  L_Scaling L_Scaling2 L_OrderSc L_Dicomo L_Dicomo2 L_Dicomo3 L_Dicomo5 L_Dicomo7 L_Dicomo8 L_Copies L_CopiesSn.
Open Scope R_scope.

Section Copies.
  Variables (n k : nat) (o : list nat).
  Hypothesis Ho : case_copies n k o.
  Hypothesis Hk : (1 <= k)%nat.
  Lemma cp_mean : forall l : list R, length l = n -> mean_of (reorder o l) = mean_of l.
  Proof. intros l Hl. rewrite !mean_of_vmean. apply (cp_vmean n k o Ho Hk). exact Hl. Qed.
  Lemma cp_combine : forall {T U} (l : list T) (m : list U), length l = n -> length m = n -> combine (reorder o l) (reorder o m) = reorder o (combine l m).
  Proof.
    intros T U l m Hl Hm. assert (E : forall (a : list T) (b : list U), combine a b = map2 (@pair T U) a b) by (induction a as [|u a IHa]; intros [|v b]; cbn; auto; rewrite IHa; auto).
    rewrite !E. symmetry. apply (cp_map2 n k o Ho); auto.
  Qed.
  Lemma cp_comoment : forall a b x y, length x = n -> length y = n -> comoment a b (reorder o x) (reorder o y) = comoment a b x y.
  Proof. intros a b x y Hx Hy. unfold comoment. rewrite !cp_mean, cp_combine by auto. rewrite <- reorder_map. apply cp_mean. rewrite map_length, combine_length. lia. Qed.
  Lemma cp_cmoment : forall a x, length x = n -> cmoment a (reorder o x) = cmoment a x.
  Proof. intros a x Hx. unfold cmoment. rewrite cp_mean by auto. rewrite <- reorder_map. apply cp_mean. rewrite map_length. auto. Qed.
  Lemma cp_variance : forall x, length x = n -> variance_of (reorder o x) = variance_of x.
  Proof. intros x Hx. exact (cp_cmoment 2 x Hx). Qed.
  Lemma cp_sum : forall f, sum_below (k * n) (fun i => f (nth i o 0%nat)) = INR k * sum_below n f.
  Proof.
    intros f. rewrite !sum_below_sumn. pose proof (copies_length _ _ _ Ho) as Lo.
    transitivity (vsum (map f o)).
    - rewrite vsum_sumn, map_length, Lo. apply sumn_ext. intros i Hi. rewrite (nth_indep _ 0 (f 0%nat)) by (rewrite map_length; lia). symmetry. apply map_nth.
    - rewrite <- (vsum_perm _ _ (Permutation_map f Ho)). rewrite concat_repeat_map.
      assert (E : vsum (map f (seq 0 n)) = sumn n f).
      { rewrite vsum_sumn, map_length, seq_length. apply sumn_ext. intros i Hi. rewrite (nth_indep _ 0 (f 0%nat)) by (rewrite map_length, seq_length; lia). rewrite map_nth, seq_nth by lia. reflexivity. }
      rewrite <- E. clear. induction k as [|m IH]; [cbn [repeat concat]; change (vsum []) with 0; cbn [INR]; ring|]. cbn [repeat concat]. rewrite vsum_app, IH, S_INR. ring.
  Qed.
  Lemma cp_row : forall (X : list (list R)) i, length X = n -> (i < k * n)%nat -> nth i (reorder o X) [] = nth (nth i o 0%nat) X [].
  Proof.
    intros X i HX Hi. rewrite (cp_nth n k o Ho X []) by auto. pose proof (copies_length _ _ _ Ho) as Lo.
    rewrite (nth_indep _ [] (nth 0%nat X [])) by (rewrite map_length; lia). apply (map_nth (fun j => nth j X [])).
  Qed.
  Lemma cp_sum2 : forall f, sum_below (k * n) (fun i => sum_below (k * n) (fun j => f (nth i o 0%nat) (nth j o 0%nat))) = INR k * INR k * sum_below n (fun i => sum_below n (f i)).
  Proof.
    intros f. rewrite (sum_below_ext (k * n) _ (fun i => INR k * sum_below n (f (nth i o 0%nat)))) by (intros; apply cp_sum).
    rewrite (cp_sum (fun a => INR k * sum_below n (f a))). rewrite !sum_below_sumn. rewrite (sumn_scal n (INR k)). rewrite Rmult_assoc. reflexivity.
  Qed.
  Hypothesis Hn : (0 < n)%nat.
  Lemma cp_dcentred : forall X i j, length X = n -> (i < k * n)%nat -> (j < k * n)%nat ->
    dcentred (k * n) (rowdist (reorder o X)) i j = dcentred n (rowdist X) (nth i o 0%nat) (nth j o 0%nat).
  Proof.
    intros X i j HX Hi Hj. pose proof (kpos k Hk) as kp. assert (np : 0 < INR n) by (apply lt_0_INR; lia).
    assert (Er : forall a b, (a < k * n)%nat -> (b < k * n)%nat -> rowdist (reorder o X) a b = rowdist X (nth a o 0%nat) (nth b o 0%nat)) by (intros a b Ha Hb; unfold rowdist; rewrite !cp_row by auto; reflexivity).
    unfold dcentred. rewrite Er by auto.
    rewrite (sum_below_ext (k * n) (fun a => rowdist (reorder o X) i a) (fun a => rowdist X (nth i o 0%nat) (nth a o 0%nat))) by (intros; apply Er; auto).
    rewrite (sum_below_ext (k * n) (fun a => rowdist (reorder o X) a j) (fun a => rowdist X (nth a o 0%nat) (nth j o 0%nat))) by (intros; apply Er; auto).
    rewrite (sum_below_ext (k * n) (fun a => sum_below (k * n) (fun b => rowdist (reorder o X) a b)) (fun a => sum_below (k * n) (fun b => rowdist X (nth a o 0%nat) (nth b o 0%nat)))) by (intros; apply sum_below_ext; intros; apply Er; auto).
    rewrite cp_sum2. rewrite (cp_sum (fun a => rowdist X (nth i o 0%nat) a)). rewrite (cp_sum (fun a => rowdist X a (nth j o 0%nat))). rewrite mult_INR.
    change (sum_below n (fun i0 => sum_below n (rowdist X i0))) with (sum_below n (fun a => sum_below n (fun b => rowdist X a b))). field. lra.
  Qed.
  Lemma cp_dcov_sq : forall X Y, length X = n -> length Y = n -> dcov_sq (k * n) (reorder o X) (reorder o Y) = dcov_sq n X Y.
  Proof.
    intros X Y HX HY. pose proof (kpos k Hk) as kp. assert (np : 0 < INR n) by (apply lt_0_INR; lia). unfold dcov_sq.
    rewrite (sum_below_ext (k * n) _ (fun i => sum_below (k * n) (fun j => dcentred n (rowdist X) (nth i o 0%nat) (nth j o 0%nat) * dcentred n (rowdist Y) (nth i o 0%nat) (nth j o 0%nat))))
      by (intros i Hi; apply sum_below_ext; intros j Hj; rewrite !cp_dcentred by auto; reflexivity).
    rewrite (cp_sum2 (fun a b => dcentred n (rowdist X) a b * dcentred n (rowdist Y) a b)). rewrite mult_INR. field. lra.
  Qed.
End Copies.

Lemma C184_scaler_l : forall env c s n p k o X, column_centre c -> column_scale s -> is_matrix n p X -> (2 <= n)%nat -> case_copies n k o -> (1 <= k)%nat ->
  sc_fit env (new_scaler c s 0) (A2 (reorder o X)) = sc_fit env (new_scaler c s 0) (A2 X) /\
  snd (sc_fit_transform env (new_scaler c s 0) (A2 (reorder o X))) = match snd (sc_fit_transform env (new_scaler c s 0) (A2 X)) with Ok Z => Ok (reorder o Z) | Err e => Err e end.
Proof.
  intros env c s n p k o X Hc Hs HX Hn Ho Hk. assert (Hn0 : (0 < n)%nat) by lia. assert (Hkn : (2 <= k * n)%nat) by nia. assert (WO : wf (k * n) p (reorder o X)) by (apply cp_wf; auto).
  assert (EF : sc_fit env (new_scaler c s 0) (A2 (reorder o X)) = sc_fit env (new_scaler c s 0) (A2 X)).
  { unfold sc_fit. rewrite (check_input_rows n p X), (check_input_rows (k * n) p (reorder o X)) by auto. cbn [new_scaler sc_center sc_scale sc_trimming].
    destruct (Nat.eq_dec p 0) as [Hp|Hp].
    - rewrite (cp_location n 1 k o Ho Hk Hn0 ltac:(lia) env c p) by auto. rewrite (cp_scale_est n 1 k o Ho Hk Hn0 ltac:(lia) env s p) by auto. reflexivity.
    - rewrite (cp_location n p k o Ho Hk Hn0 ltac:(lia) env c p) by auto. rewrite (cp_scale_est n p k o Ho Hk Hn0 ltac:(lia) env s p) by auto. reflexivity. }
  split; [exact EF|]. unfold sc_fit_transform. rewrite EF. destruct (sc_fit env (new_scaler c s 0) (A2 X)) as [st1 [u|e]]; [|reflexivity].
  unfold sc_transform. rewrite (check_input_rows n p X), (check_input_rows (k * n) p (reorder o X)) by auto.
  destruct (a_center st1) as [m|]; [|reflexivity]. destruct (a_scale st1) as [v|]; [|reflexivity].
  rewrite (cp_scale_data n 1 k o Ho Hk Hn0 ltac:(lia) p) by auto. destruct (scale_data X m v) as [Z|e]; reflexivity.
Qed.

(** samples *)
Lemma cp_sample : forall o xa x, sample xa x -> sample (areorder o xa) (reorder o x).
Proof. intros o xa x [->| ->]; [left; reflexivity|right]. cbn [areorder]. rewrite reorder_map. reflexivity. Qed.
Lemma C184_variance_l : forall dc s xa x kw k o, configured s "arithmetic" "var" "mean" -> sample xa x -> no_trimming kw -> (2 <= length x)%nat ->
  case_copies (length x) k o -> (2 <= k)%nat ->
  (fit_result dc s (areorder o xa) kw = fit_result dc s xa kw <-> biascorr kw = false \/ constant x).
Proof.
  intros dc s xa x kw k o Hc Hx Ht Hl Ho Hk. assert (Lo : length (reorder o x) = (k * length x)%nat) by (apply (cp_length (length x) k o Ho); reflexivity).
  destruct (C50_l dc s xa x kw Hc Hx Ht Hl) as (v & Ev & Vv & _ & Hv0 & _).
  destruct (C50_l dc s (areorder o xa) (reorder o x) kw Hc (cp_sample o xa x Hx) Ht ltac:(nia)) as (v' & Ev' & Vv' & _).
  rewrite Ev, Ev'. rewrite (cp_variance (length x) k o Ho ltac:(lia)) in Vv' by reflexivity. rewrite Lo in Vv'.
  destruct (biascorr kw).
  - split; [|intros [Hb|Hb]; [discriminate|]].
    + intros E. right. apply Hv0. injection E as E. rewrite Vv, Vv' in E. rewrite mult_INR in E. pose proof (kpos k ltac:(lia)) as kp. assert (np : 1 < INR (length x)) by (change 1 with (INR 1); apply lt_INR; lia).
      assert (k2 : 2 <= INR k) by (change 2 with (INR 2); apply le_INR; lia). set (N := INR (length x)) in *. set (K := INR k) in *.
      assert (HD : (K * N / (K * N - 1) - N / (N - 1)) * variance_of x = 0) by lra. apply Rmult_integral in HD. destruct HD as [HD|HD]; [|rewrite Vv, HD; ring].
      exfalso. assert (HX : K * N / (K * N - 1) - N / (N - 1) = N * (1 - K) / ((K * N - 1) * (N - 1))) by (field; split; [lra|]; assert (H2 : 0 <= (K - 2) * (N - 1)) by (apply Rmult_le_pos; lra); lra). rewrite HX in HD.
      assert (H2 : 0 <= (K - 2) * (N - 1)) by (apply Rmult_le_pos; lra). assert (H : 0 < (K * N - 1) * (N - 1)) by (apply Rmult_lt_0_compat; lra). apply Rmult_integral in HD. destruct HD as [HD|HD]; [apply Rmult_integral in HD; destruct HD; lra|]. pose proof (Rinv_0_lt_compat _ H). lra.
    + apply Hv0 in Hb. rewrite Vv in Hb. apply Rmult_integral in Hb. assert (variance_of x = 0).
      { destruct Hb as [Hb|Hb]; [|exact Hb]. exfalso. assert (np : 1 < INR (length x)) by (change 1 with (INR 1); apply lt_INR; lia). apply Rmult_integral in Hb. destruct Hb as [Hb|Hb]; [lra|]. assert (0 < / (INR (length x) - 1)) by (apply Rinv_0_lt_compat; lra). lra. }
      rewrite Vv, Vv', H, !Rmult_0_r. reflexivity.
  - split; [auto|]. intros _. rewrite Vv, Vv'. reflexivity.
Qed.
Lemma C184_dcov_l : forall dc s kw n p q k o X Y, configured s "distance" "cov" "mean" -> no_trimming kw -> biascorr kw = false -> k_metric kw = None ->
  naive_mode kw -> is_matrix n p X -> is_matrix n q Y -> (0 < n)%nat -> k_y kw = Some (A2 Y) -> case_copies n k o -> (1 <= k)%nat ->
  fit_result dc s (A2 (reorder o X)) (kw_reorder o kw) = fit_result dc s (A2 X) kw.
Proof.
  intros dc s kw n p q k o X Y Hc Ht Hb Hm Hnv HX HY Hn Hky Ho Hk. destruct (C57_l dc) as (C & H1 & _ & _ & Hpos & Hsq & _).
  assert (Hkn : (0 < k * n)%nat) by nia. assert (HX' : is_matrix (k * n) p (reorder o X)) by (apply cp_wf; auto). assert (HY' : is_matrix (k * n) q (reorder o Y)) by (apply cp_wf; auto).
  rewrite (H1 s kw n p q X Y) by auto.
  rewrite (H1 s (kw_reorder o kw) (k * n)%nat p q (reorder o X) (reorder o Y)) by (auto; try (destruct kw; cbn in *; auto; fail); unfold kw_reorder; cbn [k_y]; rewrite Hky; reflexivity).
  f_equal. assert (E : C (k * n)%nat (reorder o X) (reorder o Y) ^ 2 = C n X Y ^ 2).
  { rewrite (Hsq (k * n)%nat p q), (Hsq n p q) by auto. apply (cp_dcov_sq n k o Ho Hk Hn); [apply HX|apply HY]. }
  pose proof (Hpos (k * n)%nat (reorder o X) (reorder o Y)). pose proof (Hpos n X Y). nra.
Qed.
Lemma cp_In : forall n k o (l : list R) v, case_copies n k o -> length l = n -> (1 <= k)%nat -> In v l -> In v (reorder o l).
Proof.
  intros n k o l v Ho Hl Hk Hv. apply (Permutation_in _ (cp_perm n k o Ho l Hl)). destruct k as [|k]; [lia|]. cbn [repeat concat]. apply in_or_app. left. exact Hv.
Qed.
Lemma C184_shape_l : forall dc s xa x kw c m k o, m = "skew"%string \/ m = "kurt"%string -> configured s "arithmetic" m c -> sample xa x -> no_trimming kw -> k_option kw = None -> biascorr kw = false ->
  x <> [] -> ~ constant x -> case_copies (length x) k o -> (1 <= k)%nat ->
  fit_result dc s (areorder o xa) kw = fit_result dc s xa kw.
Proof.
  intros dc s xa x kw c m k o Hm Hc Hx Ht Ho' Hb Hne Hnc Ho Hk.
  assert (Hne' : reorder o x <> []).
  { intros E. destruct x as [|a x]; [congruence|]. pose proof (cp_In _ k o (a :: x) a Ho eq_refl Hk (or_introl eq_refl)) as HI. rewrite E in HI. destruct HI. }
  assert (Hnc' : ~ constant (reorder o x)).
  { intros C. apply Hnc. intros u v Hu Hv. apply C; apply (cp_In (length x) k o x _ Ho eq_refl Hk); auto. }
  destruct (C53_plain_l dc s xa x kw c Hx Ht Ho' Hb Hne Hnc) as [S1 K1]. destruct (C53_plain_l dc s (areorder o xa) (reorder o x) kw c (cp_sample o xa x Hx) Ht Ho' Hb Hne' Hnc') as [S2 K2].
  destruct Hm as [-> | ->]; [rewrite S1, S2 by auto; unfold skewness|rewrite K1, K2 by auto; unfold kurtosis]; rewrite !(cp_cmoment (length x) k o Ho Hk) by reflexivity; reflexivity.
Qed.
