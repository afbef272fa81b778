(** Martingale difference divergence and MDDM. *)

From Coq Require Import String Reals List Arith ZArith Bool Lia Lra Psatz.
Import ListNotations.
From Verif Require Import Num Err Vec VecR OrdR L_Mat L_Lin S_Stats L_Stats M_Utils M_Preproc L_Radial L_Preproc M_Dicomo S_Dicomo L_Dicomo L_Dicomo2 L_Dicomo5 L_Dicomo6.
Import List. Open Scope R_scope.

Lemma sumn_nth_l : forall (y : list R), sumn (length y) (fun i => nth i y 0) = vsum y.
Proof.
  intros y. unfold sumn. f_equal. induction y as [|a y IH] using rev_ind; [reflexivity|].
  rewrite app_length, seq_app, map_app. cbn [length seq map]. f_equal.
  - rewrite <- IH at 2. apply map_ext_in. intros i Hi. apply in_seq in Hi. rewrite app_nth1 by lia. reflexivity.
  - rewrite app_nth2 by lia. rewrite Nat.add_0_l, Nat.sub_diag. reflexivity.
Qed.
Lemma sum_dev_0 : forall n (y : list R), length y = n -> (0 < n)%nat -> sumn n (fun i => nth i y 0 - mean_of y) = 0.
Proof.
  intros n y Hl Hn. rewrite sumn_minus, sumn_const. subst n. rewrite sumn_nth_l. unfold mean_of. change sum_of with (@vsum R Num_R).
  field. apply not_0_INR. lia.
Qed.

Lemma dcentred_half_sq : forall n c i j, (0 < n)%nat -> sumn n c = 0 -> 
  dcentred n (fun k l => 1/2 * ((c k - c l) * (c k - c l))) i j = - (c i * c j).
Proof.
  intros n c i j Hn Hc. assert (N : INR n <> 0) by (apply not_0_INR; lia). rewrite dcentred_sumn.
  assert (R1 : forall a, sumn n (fun k => 1/2 * ((a - c k) * (a - c k))) = 1/2 * (INR n * (a * a) + sumn n (fun k => c k * c k))).
  { intros a. rewrite (sumn_ext n _ (fun k => (1/2 * (a * a) + 1/2 * (c k * c k)) - a * c k)) by (intros; field).
    rewrite sumn_minus, sumn_plus, sumn_const, (sumn_scal n (1/2) (fun k => c k * c k)), (sumn_scal n a c), Hc. ring. }
  rewrite (R1 (c i)). rewrite (sumn_ext n (fun k => 1/2 * ((c k - c j) * (c k - c j))) (fun k => 1/2 * ((c j - c k) * (c j - c k)))) by (intros; ring). rewrite (R1 (c j)).
  rewrite (sumn_ext n (fun k => sumn n (fun l => 1/2 * ((c k - c l) * (c k - c l)))) (fun k => INR n * / 2 * (c k * c k) + / 2 * sumn n (fun k => c k * c k)))
    by (intros; rewrite R1; field).
  rewrite sumn_plus, sumn_const, (sumn_scal n (INR n * /2) (fun k => c k * c k)). field. auto.
Qed.

(** pairing a doubly centred matrix with a centred rank one matrix *)
Lemma dcentred_pair : forall n d c, (0 < n)%nat -> sumn n c = 0 ->
  sumn n (fun i => sumn n (fun j => dcentred n d i j * (c i * c j))) = sumn n (fun i => sumn n (fun j => d i j * (c i * c j))).
Proof.
  intros n d c Hn Hc.
  assert (E : forall i, (i < n)%nat -> sumn n (fun j => dcentred n d i j * (c i * c j)) =
    sumn n (fun j => d i j * (c i * c j)) - c i * sumn n (fun j => sumn n (fun k => d k j) / INR n * c j)).
  { intros i Hi. rewrite (sumn_ext n _ (fun j => (d i j * (c i * c j) - c i * (sumn n (fun k => d k j) / INR n * c j)) + 
      (c i * (sumn n (fun k => sumn n (fun l => d k l)) / (INR n * INR n) - sumn n (fun k => d i k) / INR n)) * c j)).
    2:{ intros j Hj. rewrite dcentred_sumn. ring. }
    rewrite sumn_plus, sumn_minus, (sumn_scal n _ c), Hc, (sumn_scal n (c i) (fun j => sumn n (fun k => d k j) / INR n * c j)). ring. }
  rewrite (sumn_ext n _ _ E). rewrite sumn_minus, (sumn_scal_r n _ c), Hc. ring.
Qed.

Lemma flat_sample : forall ya (y : list R), sample ya y -> flat ya = y.
Proof. intros ya y [->| ->]; [reflexivity|]. cbn [flat]. induction y as [|a y IH]; [reflexivity|]. cbn. f_equal. exact IH. Qed.

Lemma singleton_dist : forall (y : list R) n, length y = n -> dist_matrix euclid (map (fun v => [v]) y) = famat n (fun i j => Rabs (nth i y 0 - nth j y 0)).
Proof.
  intros y n Hl. rewrite (dist_matrix_euclid n 1).
  - apply famat_ext. intros i j Hi Hj. unfold rowdist. rewrite !(nth_map_lt _ _ _ 0) by lia. unfold edist. cbn. 
    rewrite <- sqrt_Rsqr_abs. f_equal. unfold Rsqr. ring.
  - split; [rewrite map_length; auto|]. apply Forall_forall. intros r Hr. apply in_map_iff in Hr as [v [<- _]]. reflexivity.
Qed.

Lemma dd_value : forall n p X ya y, wf n p X -> (0 < n)%nat -> sample ya y -> length y = n ->
  difference_divergence X ya "mean" 0 false = Ok (mdd_sq n X y).
Proof.
  intros n p X ya y HX Hn Hy Hl. unfold difference_divergence. rewrite (dmc_euclid n p X HX Hn). cbn [bind].
  rewrite (flat_sample ya y Hy), (singleton_dist y n Hl).
  set (c := fun i => nth i y 0 - mean_of y).
  assert (E : map (map (fun d => nmul (nlit 1 2) (nsqr d))) (famat n (fun i j => Rabs (nth i y 0 - nth j y 0))) = famat n (fun i j => 1/2 * ((c i - c j) * (c i - c j)))).
  { unfold famat. rewrite map_map. apply map_ext. intros i. rewrite map_map. apply map_ext. intros j. unfold c, nsqr. rnum.
    change (Rabs (nth i y 0 - nth j y 0) * Rabs (nth i y 0 - nth j y 0)) with (Rsqr (Rabs (nth i y 0 - nth j y 0))). rewrite <- Rsqr_abs. unfold Rsqr. lra. }
  rewrite E, double_center_mean by auto. cbn [bind fst]. unfold D_inner. rewrite !famat_length, Nat.eqb_refl. cbn [negb]. unfold inner_slice.
  rnum. rewrite Reqb_refl. rewrite famat_mul, famat_sum. rewrite (concat_len n n) by apply famat_wf.
  rewrite nnat_R, sqrt_sqrt by apply pos_INR. f_equal. unfold mdd_sq. rewrite sum_below_sumn.
  rewrite (sumn_ext n (fun i => sum_below n _) (fun i => sumn n (fun j => rowdist X i j * (c i * c j)))) by (intros; apply sum_below_sumn).
  assert (Hc : sumn n c = 0) by (apply sum_dev_0; auto).
  rewrite <- (dcentred_pair n (rowdist X) c Hn Hc).
  rewrite (sumn_ext n (fun i => sumn n (fun j => dcentred n (rowdist X) i j * dcentred n (fun k l => 1/2 * ((c k - c l) * (c k - c l))) i j))
    (fun i => -1 * sumn n (fun j => dcentred n (rowdist X) i j * (c i * c j)))).
  - rewrite (sumn_scal n (-1)), mult_INR. field. apply not_0_INR. lia.
  - intros i Hi. rewrite <- sumn_scal. apply sumn_ext. intros j Hj. rewrite dcentred_half_sq by auto. ring.
Qed.

Lemma fit_mdd_value : forall dc s kw n p X ya y, configured s "distance" "mdd" "mean" -> no_trimming kw -> biascorr kw = false ->
  is_matrix n p X -> (0 < n)%nat -> k_y kw = Some ya -> sample ya y -> length y = n ->
  fit_result dc s (A2 X) kw = Ok (sqrt (mdd_sq n X y)).
Proof.
  intros dc s kw n p X ya y [C1 [C2 C3]] Ht Hb HX Hn Hy Hs Hl. apply is_matrix_wf in HX.
  destruct s as [e m c mo xm ym co]; cbn [d_est d_mode d_center] in C1, C2, C3; subst e m c.
  unfold fit_result, dicomo_fit. rewrite (no_trimming_t kw Ht). dsimp. cbn [alen]. rewrite (mat_ne n p X HX Hn). dsimp.
  unfold fit_mdd. rewrite (no_trimming_t kw Ht), (bias_dflt kw Hb). unfold get_y. rewrite Hy. dsimp.
  assert (La : alen ya = n) by (destruct Hs as [->| ->]; cbn [alen]; rewrite ?map_length; auto).
  cbn [alen]. rewrite La, (wf_length n p X HX), Nat.eqb_refl. destruct (n =? 0)%nat eqn:En; [apply Nat.eqb_eq in En; lia|]. dsimp.
  cbn [arows]. rewrite (dd_value n p X ya y) by auto. dsimp. unfold fit_tail. dsimp. reflexivity.
Qed.

(* ------------------------------------------------------------------ *)
Lemma wf_madd : forall n p (X Y : list (list R)), wf n p X -> wf n p Y -> wf n p (madd X Y).
Proof.
  intros n p X Y [H1 H2] [H3 H4]. split; [unfold madd; rewrite map2_length; lia|]. unfold madd. revert n Y H1 H3 H4. induction X as [|x X IH]; intros n Y H1 H3 H4; [constructor|].
  destruct Y as [|y Y]; [constructor|]. inversion H2; subst. inversion H4; subst. cbn [map2]. constructor.
  - unfold vadd. rewrite map2_length. lia.
  - apply (IH H6 (length X)); auto.
Qed.
Lemma mget_madd : forall n p (X Y : list (list R)) i j, wf n p X -> wf n p Y -> (i < n)%nat -> (j < p)%nat -> mget (madd X Y) i j = mget X i j + mget Y i j.
Proof.
  intros n p X Y i j HX HY Hi Hj. unfold mget, madd. rewrite (nth_map2 _ _ _ _ [] []) by (rewrite ?(wf_length n p X HX), ?(wf_length n p Y HY); auto).
  unfold vadd. rewrite (nth_map2 _ _ _ _ n0 n0) by (rewrite ?(wf_nth_row n p X i HX Hi), ?(wf_nth_row n p Y i HY Hi); auto). reflexivity.
Qed.

Lemma nth_repeat_lt : forall {T} (a d : T) n i, (i < n)%nat -> nth i (repeat a n) d = a.
Proof. intros T a d n. induction n as [|n IH]; intros [|i] Hi; try lia; [reflexivity|]. apply IH. lia. Qed.

Lemma const_mean : forall (x : list R) v, constant x -> In v x -> mean_of x = v.
Proof.
  intros x v Hc Hv. rewrite mean_of_vmean. assert (v <= vmean x <= v); [|lra]. apply vmean_bounds; [intros ->; destruct Hv|].
  apply Forall_forall. intros u Hu. rewrite (Hc u v Hu Hv). lra.
Qed.

Section Mddm.
  Variables (n p q : nat) (X Y : list (list R)).
  Hypothesis HX : wf n p X.
  Hypothesis HY : wf n q Y.
  Hypothesis Hn : (0 < n)%nat.

  Let Yc := map (fun r => vsub r (map vmean (cols Y))) Y.
  Let cy i a := nth a (nth i Y []) 0 - mean_of (column_of Y a).

  Lemma Yc_wf : wf n q Yc.
  Proof.
    split; [unfold Yc; rewrite map_length; apply HY|]. apply Forall_forall. intros r Hr. unfold Yc in Hr. apply in_map_iff in Hr as [u [<- Hu]].
    destruct HY as [H1 H2]. rewrite Forall_forall in H2. unfold vsub. rewrite map2_length, map_length. unfold cols. rewrite map_length, seq_length, (wf_ncols n q Y HY Hn), (H2 u Hu). lia.
  Qed.
  Lemma Yc_get : forall i a, (i < n)%nat -> (a < q)%nat -> mget Yc i a = cy i a.
  Proof.
    intros i a Hi Ha. unfold mget, Yc. rewrite (nth_map_lt _ _ _ []) by (rewrite (wf_length n q Y HY); auto). unfold vsub.
    rewrite (nth_map2 _ _ _ _ n0 n0).
    - unfold cy. rnum. f_equal. unfold cols. rewrite map_map, (wf_ncols n q Y HY Hn), (nth_map_lt _ _ _ 0%nat) by (rewrite seq_length; auto).
      rewrite seq_nth by auto. rewrite Nat.add_0_l. symmetry. apply mean_of_vmean.
    - rewrite (wf_nth_row n q Y i HY Hi). auto.
    - rewrite map_length. unfold cols. rewrite map_length, seq_length, (wf_ncols n q Y HY Hn). auto.
  Qed.
  Lemma mddm_dist_nth : forall i j, (i < n)%nat -> (j < n)%nat -> nth j (mddm_dist X i) 0 = rowdist X i j.
  Proof.
    intros i j Hi Hj. unfold mddm_dist. rewrite (nth_map_lt _ _ _ []) by (rewrite (wf_length n p X HX); auto).
    rewrite (rowdist_sym n p) by auto. unfold rowdist. rewrite edist_vnorm. reflexivity.
  Qed.
  Lemma mddm_dist_length : forall i, length (mddm_dist X i) = n.
  Proof. intros. unfold mddm_dist. rewrite map_length. apply HX. Qed.

  Let stepm M i := madd M (outer (nth i Yc []) (tmatvec Yc (mddm_dist X i))).

  Lemma tm_length : forall i, length (tmatvec Yc (mddm_dist X i)) = q.
  Proof. intros. unfold tmatvec, cols. rewrite !map_length, seq_length. apply (wf_ncols n q Yc Yc_wf Hn). Qed.
  Lemma outer_wf : forall i, (i < n)%nat -> wf q q (outer (nth i Yc []) (tmatvec Yc (mddm_dist X i))).
  Proof.
    intros i Hi. pose proof (wf_outer (nth i Yc []) (tmatvec Yc (mddm_dist X i))) as W. rewrite (wf_nth_row n q Yc i Yc_wf Hi), (tm_length i) in W. exact W.
  Qed.

  Lemma mddm_fold : forall k, (k <= n)%nat -> let M := fold_left stepm (seq 0 k) (repeat (vzeros q) q) in
    wf q q M /\ forall a b, (a < q)%nat -> (b < q)%nat -> mget M a b = sumn k (fun i => cy i a * sumn n (fun j => rowdist X i j * cy j b)).
  Proof.
    induction k as [|k IH]; intros Hk M.
    - split.
      + split; [apply repeat_length|]. apply Forall_forall. intros r Hr. apply repeat_spec in Hr. subst. apply repeat_length.
      + intros a b Ha Hb. unfold M. cbn [seq fold_left]. unfold mget. rewrite nth_repeat_lt by auto. unfold vzeros. rewrite nth_repeat. reflexivity.
    - destruct (IH ltac:(lia)) as [IW IG]. unfold M. rewrite seq_S, fold_left_app. cbn [fold_left Nat.add]. unfold stepm at 1 3.
      assert (Wo : wf q q (outer (nth k Yc []) (tmatvec Yc (mddm_dist X k)))) by (apply outer_wf; lia).
      split; [apply wf_madd; auto|]. intros a b Ha Hb. rewrite (mget_madd q q) by auto. rewrite IG by auto. rewrite sumn_S. f_equal.
      rewrite mget_outer by (rewrite (wf_nth_row n q Yc k Yc_wf); lia). 
      change (nth a (nth k Yc []) 0) with (mget Yc k a). rewrite Yc_get by (auto; lia). f_equal.
      rewrite (nth_tmatvec n q) by (auto using Yc_wf). rewrite (dot_col_sumn n q) by (auto using Yc_wf, mddm_dist_length).
      apply sumn_ext. intros j Hj. rewrite Yc_get by auto. rewrite mddm_dist_nth by (auto; lia). ring.
  Qed.

  Lemma MDDM_value : p <> 1%nat \/ n = 1%nat -> exists M, MDDM X Y = Ok M /\ wf q q M /\
    forall a b, (a < q)%nat -> (b < q)%nat -> mget M a b = mddm_entry n X Y a b.
  Proof.
    intros Hp. unfold MDDM. rewrite (wf_length n p X HX), (wf_length n q Y HY), Nat.eqb_refl, (wf_ncols n p X HX Hn), (wf_ncols n q Y HY Hn). cbn [negb].
    assert (E : ((p =? 1)%nat && negb (n <=? 1)%nat)%bool = false).
    { destruct Hp as [Hp| Hp]; [apply Nat.eqb_neq in Hp; rewrite Hp; reflexivity|]. rewrite Hp. rewrite andb_false_r. reflexivity. }
    rewrite E. change (map (fun r => vsub r (map vmean (cols Y))) Y) with Yc.
    change (fun (M : list (list R)) (i : nat) => madd M (outer (nth i Yc []) (tmatvec Yc (mddm_dist X i)))) with stepm.
    destruct (mddm_fold n (le_n n)) as [W G]. eexists. split; [reflexivity|]. split; [apply wf_mapmap; exact W|].
    intros a b Ha Hb. unfold mget. rewrite (nth_map_lt _ _ _ []) by (rewrite (wf_length q q _ W); auto).
    rewrite (nth_map_lt _ _ _ 0) by (rewrite (wf_nth_row q q _ a W Ha); auto).
    match goal with |- context[nth b (nth a ?M []) 0] => change (nth b (nth a M []) 0) with (mget M a b) end.
    rewrite G by auto. rnum. unfold mddm_entry. rewrite sum_below_sumn, nnat_R, mult_INR. unfold Rdiv. rewrite Ropp_mult_distr_l. f_equal. f_equal.
    apply sumn_ext. intros i Hi. rewrite sum_below_sumn, <- sumn_scal. apply sumn_ext. intros j Hj. unfold cy. ring.
  Qed.
  Lemma MDDM_single : p = 1%nat -> (2 <= n)%nat -> MDDM X Y = Err ValueError.
  Proof.
    intros Hp H2. unfold MDDM. rewrite (wf_length n p X HX), (wf_length n q Y HY), Nat.eqb_refl, (wf_ncols n p X HX Hn). cbn [negb]. rewrite Hp.
    destruct n as [|[|m]]; [lia|lia|]. reflexivity.
  Qed.
End Mddm.

Lemma mddm_entry_sym : forall n p X Y a b, wf n p X -> mddm_entry n X Y a b = mddm_entry n X Y b a.
Proof.
  intros n p X Y a b HX. unfold mddm_entry. f_equal. f_equal. rewrite !sum_below_sumn.
  rewrite (sumn_ext n (fun i => sum_below n _) _ (fun i _ => sum_below_sumn n _)). symmetry.
  rewrite (sumn_ext n (fun i => sum_below n _) _ (fun i _ => sum_below_sumn n _)). rewrite sumn_exchange.
  apply sumn_ext. intros i Hi. apply sumn_ext. intros j Hj. rewrite (rowdist_sym n p X j i) by auto. ring.
Qed.
Lemma mddm_entry_const : forall n X Y a b, length Y = n -> (0 < n)%nat -> constant (column_of Y a) -> mddm_entry n X Y a b = 0.
Proof.
  intros n X Y a b Hl Hn Hc. unfold mddm_entry. rewrite !sum_below_sumn. rewrite sumn_zero; [unfold Rdiv; ring|].
  intros i Hi. rewrite sum_below_sumn. apply sumn_zero. intros j Hj.
  assert (E : nth a (nth i Y []) 0 = mean_of (column_of Y a)).
  { rewrite <- (nth_map_lt (fun r => nth a r 0) Y i [] 0) by lia. fold (column_of Y a). symmetry. apply const_mean; auto.
    - unfold column_of. apply nth_In. rewrite map_length. lia. }
  rewrite E. ring.
Qed.
Lemma mddm_entry_single : forall n X y, mddm_entry n X (map (fun v => [v]) y) 0 0 = mdd_sq n X y.
Proof.
  intros. unfold mddm_entry, mdd_sq. assert (E : column_of (map (fun v => [v]) y) 0 = y).
  { unfold column_of. rewrite map_map. cbn [nth]. apply map_id. }
  rewrite E. f_equal. f_equal. rewrite !sum_below_sumn. apply sumn_ext. intros i Hi. rewrite !sum_below_sumn. apply sumn_ext. intros j Hj.
  f_equal. assert (F : forall k, nth 0 (nth k (map (fun v => [v]) y) []) 0 = nth k y 0).
  { clear. intros k. revert k. induction y as [|a y IH]; intros [|k]; try reflexivity. apply IH. }
  rewrite !F. reflexivity.
Qed.
