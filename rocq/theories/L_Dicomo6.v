(** Distance covariance, variance, correlation through fit. *)

From Coq Require Import String Reals List Arith ZArith Bool Lia Lra Psatz.
Import ListNotations.
From Verif Require Import Num Err Vec VecR OrdR L_Mat L_Lin S_Stats L_Stats M_Utils M_Preproc L_Radial L_Preproc M_Dicomo S_Dicomo L_Dicomo L_Dicomo2 L_Dicomo5.
Import List. Open Scope R_scope.

Lemma naive_test : forall kw, naive_mode kw -> (dflt (k_calc kw) "fast" =? "fast")%string = false.
Proof. intros kw [c [E Hc]]. rewrite E. cbn [dflt]. apply String.eqb_neq. exact Hc. Qed.
Lemma fast_test : forall kw, fast_mode kw -> (dflt (k_calc kw) "fast" =? "fast")%string = true.
Proof. intros kw [E|E]; rewrite E; reflexivity. Qed.
Lemma mat_ne : forall n p (X : list (list R)), wf n p X -> (0 < n)%nat -> (length X =? 0)%nat = false.
Proof. intros n p X HX Hn. rewrite (wf_length n p X HX). apply Nat.eqb_neq. lia. Qed.

Section Fit.
  Context (dc : dcor_env R).

  Ltac startd s kw :=
    let C1 := fresh in let C2 := fresh in let C3 := fresh in
    intros [C1 [C2 C3]] Ht Hb Hm; destruct s as [e m c mo xm ym co]; cbn [d_est d_mode d_center] in C1, C2, C3; subst e m c;
    unfold fit_result, dicomo_fit; rewrite (no_trimming_t kw Ht); dsimp; unfold biascorr in Hb.

  Lemma bias_dflt : forall kw, biascorr kw = false -> dflt (k_bias kw) false = false.
  Proof. intros kw Hb. exact Hb. Qed.

  Lemma fit_dvar : forall s kw n p X, configured s "distance" "var" "mean" -> no_trimming kw -> biascorr kw = false -> k_metric kw = None ->
    naive_mode kw -> is_matrix n p X -> (0 < n)%nat ->
    fit_result dc s (A2 X) kw = Ok (sqrt (Rabs (dcov_sq n X X))).
  Proof.
    intros s kw n p X Hc Ht Hb Hm Hnv HX Hn. apply is_matrix_wf in HX. revert Hc Ht Hb Hm. startd s kw.
    cbn [alen]. rewrite (mat_ne n p X HX Hn). rewrite (naive_test kw Hnv). dsimp.
    unfold fit_distance. rewrite (no_trimming_t kw Ht), (bias_dflt kw Hb), Hm. dsimp. cbn [arows].
    rewrite (dmc_euclid n p X HX Hn). dsimp. rewrite distance_moment_2 by auto. dsimp. unfold fit_tail. dsimp.
    rewrite dcov_sq_sumn. reflexivity.
  Qed.

  Lemma fit_dcov : forall s kw n p q X Y, configured s "distance" "cov" "mean" -> no_trimming kw -> biascorr kw = false -> k_metric kw = None ->
    naive_mode kw -> is_matrix n p X -> is_matrix n q Y -> (0 < n)%nat -> k_y kw = Some (A2 Y) ->
    fit_result dc s (A2 X) kw = Ok (sqrt (Rabs (dcov_sq n X Y))).
  Proof.
    intros s kw n p q X Y Hc Ht Hb Hm Hnv HX HY Hn Hy. apply is_matrix_wf in HX. apply is_matrix_wf in HY. revert Hc Ht Hb Hm. startd s kw.
    cbn [alen]. rewrite (mat_ne n p X HX Hn). rewrite (naive_test kw Hnv). dsimp.
    unfold fit_distance. rewrite (no_trimming_t kw Ht), (bias_dflt kw Hb), Hm. dsimp. cbn [arows].
    rewrite (dmc_euclid n p X HX Hn). dsimp. unfold get_y. rewrite Hy. dsimp. cbn [alen].
    rewrite (mat_ne n q Y HY Hn), (wf_length n p X HX), (wf_length n q Y HY), Nat.eqb_refl. dsimp. cbn [prows]. dsimp.
    rewrite (dmc_euclid n q Y HY Hn). dsimp. rewrite distance_moment_2 by discriminate. dsimp. unfold fit_tail. dsimp.
    rewrite dcov_sq_sumn. reflexivity.
  Qed.

  Lemma fit_dcorr : forall s kw n p q X Y, configured s "distance" "corr" "mean" -> no_trimming kw -> biascorr kw = false -> k_metric kw = None ->
    naive_mode kw -> is_matrix n p X -> is_matrix n q Y -> (0 < n)%nat -> k_y kw = Some (A2 Y) -> k_order kw = None ->
    fit_result dc s (A2 X) kw = Ok (sqrt (Rabs (dcov_sq n X Y)) / (sqrt (sqrt (Rabs (dcov_sq n X X))) * sqrt (sqrt (Rabs (dcov_sq n Y Y))))).
  Proof.
    intros s kw n p q X Y Hc Ht Hb Hm Hnv HX HY Hn Hy Ho. apply is_matrix_wf in HX. apply is_matrix_wf in HY. revert Hc Ht Hb Hm. startd s kw.
    cbn [alen]. rewrite (mat_ne n p X HX Hn). rewrite (naive_test kw Hnv). rewrite Ho. dsimp.
    unfold fit_distance. rewrite (no_trimming_t kw Ht), (bias_dflt kw Hb), Hm. dsimp. cbn [arows].
    rewrite (dmc_euclid n p X HX Hn). dsimp. rewrite distance_moment_2 by auto. dsimp.
    unfold get_y. rewrite Hy. dsimp. cbn [alen].
    rewrite (mat_ne n q Y HY Hn), (wf_length n p X HX), (wf_length n q Y HY), Nat.eqb_refl. dsimp. cbn [prows]. dsimp.
    rewrite (dmc_euclid n q Y HY Hn). dsimp. rewrite !distance_moment_2 by (auto; discriminate). dsimp. 
    rewrite !distance_moment_2 by (auto; discriminate). dsimp. unfold fit_tail. dsimp.
    rewrite !dcov_sq_sumn. reflexivity.
  Qed.

  (** the fast path *)
  Lemma fit_dvar_fast : forall s kw n p X, dcor_exact dc -> configured s "distance" "var" "mean" -> no_trimming kw -> biascorr kw = false -> k_metric kw = None ->
    fast_mode kw -> is_matrix n p X -> (0 < n)%nat ->
    fit_result dc s (A2 X) kw = Ok (sqrt (dcov_sq n X X)).
  Proof.
    intros s kw n p X Hdc Hc Ht Hb Hm Hnv HX Hn. pose proof (proj1 (is_matrix_wf _ _ _) HX) as HX'. revert Hc Ht Hb Hm. startd s kw.
    cbn [alen]. rewrite (mat_ne n p X HX' Hn). rewrite (fast_test kw Hnv). rnum. rewrite Reqb_refl. dsimp.
    unfold fit_fast. rewrite (bias_dflt kw Hb). dsimp. cbn [arows].
    rewrite (Hdc n p p X X HX HX Hn). dsimp. unfold fit_tail. dsimp. reflexivity.
  Qed.
  Lemma fit_dcov_fast : forall s kw n p q X Y, dcor_exact dc -> configured s "distance" "cov" "mean" -> no_trimming kw -> biascorr kw = false -> k_metric kw = None ->
    fast_mode kw -> is_matrix n p X -> is_matrix n q Y -> (0 < n)%nat -> k_y kw = Some (A2 Y) ->
    fit_result dc s (A2 X) kw = Ok (sqrt (dcov_sq n X Y)).
  Proof.
    intros s kw n p q X Y Hdc Hc Ht Hb Hm Hnv HX HY Hn Hy. pose proof (proj1 (is_matrix_wf _ _ _) HX) as HX'. revert Hc Ht Hb Hm. startd s kw.
    cbn [alen]. rewrite (mat_ne n p X HX' Hn). rewrite (fast_test kw Hnv). rnum. rewrite Reqb_refl. dsimp.
    unfold fit_fast. rewrite (bias_dflt kw Hb). dsimp. cbn [arows]. unfold get_y. rewrite Hy. dsimp.
    rewrite (Hdc n p q X Y HX HY Hn). dsimp. unfold fit_tail. dsimp. reflexivity.
  Qed.
End Fit.

(* ------------------------------------------------------------------ *)
(** properties of the squared distance covariance *)
Lemma dcov_sq_sym : forall n X Y, dcov_sq n X Y = dcov_sq n Y X.
Proof.
  intros. rewrite !dcov_sq_sumn. f_equal. apply sumn_ext. intros. apply sumn_ext. intros. ring.
Qed.
Lemma dcov_sq_ext : forall n X X' Y, (forall i j, (i < n)%nat -> (j < n)%nat -> rowdist X i j = rowdist X' i j) -> dcov_sq n X Y = dcov_sq n X' Y.
Proof.
  intros n X X' Y Hd. rewrite !dcov_sq_sumn. f_equal. apply sumn_ext. intros i Hi. apply sumn_ext. intros j Hj. f_equal. apply dcentred_ext; auto.
Qed.
Lemma translate_rowdist : forall n p c X i j, is_matrix n p X -> length c = p -> (i < n)%nat -> (j < n)%nat -> rowdist (translate c X) i j = rowdist X i j.
Proof.
  intros n p c X i j HX Hc Hi Hj. apply is_matrix_wf in HX. unfold rowdist, translate.
  rewrite !(nth_map_lt _ _ _ [] []) by (rewrite (wf_length n p X HX); auto). rewrite !plus_l_vadd.
  pose proof (wf_nth_row n p X i HX Hi) as Li. pose proof (wf_nth_row n p X j HX Hj) as Lj.
  set (u := nth i X []) in *. set (v := nth j X []) in *. clearbody u v. unfold edist. f_equal. rewrite !sqdist_dot. f_equal.
  all: clear HX Hi Hj; revert v c p Hc Li Lj; induction u as [|a u IH]; intros [|b v] [|c0 c] p Hc Li Lj; cbn in Hc, Li, Lj; subst; try discriminate; [reflexivity|];
    unfold vsub, vadd in *; cbn [map2]; f_equal; [rnum; ring|]; eapply IH; [reflexivity|lia|lia].
Qed.
Lemma dcov_sq_translate : forall n p c X Y, is_matrix n p X -> length c = p -> dcov_sq n (translate c X) Y = dcov_sq n X Y.
Proof. intros n p c X Y HX Hc. apply dcov_sq_ext. intros. eapply translate_rowdist; eauto. Qed.

Lemma dcentred_const : forall n d i j, (0 < n)%nat -> (i < n)%nat -> (j < n)%nat -> (forall k l, (k < n)%nat -> (l < n)%nat -> d k l = 0) -> dcentred n d i j = 0.
Proof.
  intros n d i j Hn Hi Hj Hd. rewrite dcentred_sumn, Hd by auto.
  rewrite (sumn_zero n (fun k => d i k)), (sumn_zero n (fun k => d k j)), (sumn_zero n (fun k => sumn n (fun l => d k l))) by (auto; intros; apply sumn_zero; auto).
  unfold Rdiv. ring.
Qed.
Lemma dcov_sq_const : forall n p X Y, is_matrix n p X -> (0 < n)%nat -> constant_rows X -> dcov_sq n X Y = 0.
Proof.
  intros n p X Y HX Hn Hc. apply is_matrix_wf in HX. rewrite dcov_sq_sumn.
  rewrite (sumn_zero n); [unfold Rdiv; ring|]. intros i Hi. apply sumn_zero. intros j Hj. rewrite dcentred_const; auto; [ring|].
  intros k l Hk Hl. assert (E : nth k X [] = nth l X []) by (apply Hc; apply nth_In; rewrite (wf_length n p X HX); auto).
  unfold rowdist. rewrite E. change (rowdist X l l = 0). apply rowdist_self.
Qed.
Lemma dcov_sq_self_nonneg : forall n X, (0 < n)%nat -> 0 <= dcov_sq n X X.
Proof.
  intros n X Hn. rewrite dcov_sq_sumn. assert (0 < INR n) by (apply lt_0_INR; auto).
  apply Rmult_le_pos; [|apply Rlt_le, Rinv_0_lt_compat; nra]. apply sumn_nonneg. intros i Hi. apply sumn_nonneg. intros. nra.
Qed.

(** Cauchy-Schwarz for double sums *)
Lemma sumn_vec : forall n f, sumn n f = vsum (map f (seq 0 n)). Proof. reflexivity. Qed.
Lemma concat_mul : forall (h k : nat -> nat -> R) m l,
  map2 Rmult (concat (map (fun i => map (h i) m) l)) (concat (map (fun i => map (k i) m) l)) = concat (map (fun i => map (fun j => h i j * k i j) m) l).
Proof.
  intros h k m l. induction l as [|a l IH]; [reflexivity|]. cbn [map concat]. rewrite <- IH. clear IH.
  generalize (concat (map (fun i => map (h i) m) l)) (concat (map (fun i => map (k i) m) l)). intros P Q.
  induction m as [|b m IH]; [reflexivity|]. cbn [map app map2]. f_equal. exact IH.
Qed.
Lemma double_cs : forall n f g, (sumn n (fun i => sumn n (fun j => f i j * g i j))) * (sumn n (fun i => sumn n (fun j => f i j * g i j))) <=
  sumn n (fun i => sumn n (fun j => f i j * f i j)) * sumn n (fun i => sumn n (fun j => g i j * g i j)).
Proof.
  intros n f g. assert (E : forall h k, sumn n (fun i => sumn n (fun j => h i j * k i j)) = dot (concat (famat n h)) (concat (famat n k))).
  { intros h k. rewrite <- (famat_sum n (fun i j => h i j * k i j)). unfold dot. f_equal. symmetry. apply concat_mul. }
  rewrite !E. apply cauchy_schwarz_sq. rewrite !(concat_len n n) by apply famat_wf. reflexivity.
Qed.
Lemma dcov_sq_cs : forall n X Y, (0 < n)%nat -> dcov_sq n X Y * dcov_sq n X Y <= dcov_sq n X X * dcov_sq n Y Y.
Proof.
  intros n X Y Hn. rewrite !dcov_sq_sumn. pose proof (double_cs n (dcentred n (rowdist X)) (dcentred n (rowdist Y))) as H.
  assert (0 < / (INR n * INR n)). { apply Rinv_0_lt_compat. assert (0 < INR n) by (apply lt_0_INR; auto). nra. }
  unfold Rdiv. set (k := / (INR n * INR n)) in *. nra.
Qed.

Lemma scale_rowdist : forall n p a X i j, is_matrix n p X -> (i < n)%nat -> (j < n)%nat -> rowdist (scale_rows a X) i j = Rabs a * rowdist X i j.
Proof.
  intros n p a X i j HX Hi Hj. apply is_matrix_wf in HX. unfold rowdist, scale_rows.
  rewrite !(nth_map_lt _ _ _ [] []) by (rewrite (wf_length n p X HX); auto). rewrite !edist_vnorm.
  assert (E : vsub (map (Rmult a) (nth i X [])) (map (Rmult a) (nth j X [])) = vscale a (vsub (nth i X []) (nth j X []))).
  { unfold vsub, vscale. rewrite map2_map_l, map2_map_r, map_map2. apply map2_ext. intros. rnum. ring. }
  rewrite E. apply norm_vscale.
Qed.
Lemma dcentred_scale : forall n a d i j, dcentred n (fun k l => a * d k l) i j = a * dcentred n d i j.
Proof.
  intros n a d i j. rewrite !dcentred_sumn.
  rewrite (sumn_ext n (fun k => sumn n (fun l => a * d k l)) (fun k => a * sumn n (fun l => d k l))) by (intros; apply (sumn_scal n a (fun l => d i0 l))).
  rewrite (sumn_scal n a (fun k => d i k)), (sumn_scal n a (fun k => d k j)), (sumn_scal n a (fun k => sumn n (fun l => d k l))). unfold Rdiv. ring.
Qed.
Lemma dcov_sq_scale : forall n p a X Y, is_matrix n p X -> dcov_sq n (scale_rows a X) Y = Rabs a * dcov_sq n X Y.
Proof.
  intros n p a X Y HX. rewrite !dcov_sq_sumn.
  rewrite (sumn_ext n (fun i => sumn n (fun j => dcentred n (rowdist (scale_rows a X)) i j * dcentred n (rowdist Y) i j))
    (fun i => Rabs a * sumn n (fun j => dcentred n (rowdist X) i j * dcentred n (rowdist Y) i j))).
  - rewrite sumn_scal. unfold Rdiv. ring.
  - intros i Hi. rewrite <- sumn_scal. apply sumn_ext. intros j Hj. rewrite <- Rmult_assoc, <- (dcentred_scale n (Rabs a) (rowdist X)). f_equal.
    apply dcentred_ext; auto. intros k l Hk Hl. eapply scale_rowdist; eauto.
Qed.

(** distance correlation *)
Definition dcorf (n : nat) (X Y : list (list R)) : R :=
  sqrt (Rabs (dcov_sq n X Y)) / (sqrt (sqrt (Rabs (dcov_sq n X X))) * sqrt (sqrt (Rabs (dcov_sq n Y Y)))).

Lemma dcorf_bounds : forall n X Y, (0 < n)%nat -> 0 < dcov_sq n X X -> 0 < dcov_sq n Y Y -> 0 <= dcorf n X Y <= 1.
Proof.
  intros n X Y Hn Hx Hy. unfold dcorf. pose proof (dcov_sq_cs n X Y Hn) as Hcs.
  rewrite (Rabs_pos_eq (dcov_sq n X X)), (Rabs_pos_eq (dcov_sq n Y Y)) by lra.
  rewrite <- sqrt_mult by apply sqrt_pos. rewrite <- sqrt_mult by lra.
  assert (Hp : 0 < dcov_sq n X X * dcov_sq n Y Y) by nra.
  pose proof (sqrt_lt_R0 _ (sqrt_lt_R0 _ Hp)) as Sp. pose proof (sqrt_pos (Rabs (dcov_sq n X Y))) as Sq.
  assert (Rabs (dcov_sq n X Y) <= sqrt (dcov_sq n X X * dcov_sq n Y Y)).
  { rewrite <- (sqrt_Rsqr_abs (dcov_sq n X Y)). apply sqrt_le_1_alt. exact Hcs. }
  assert (sqrt (Rabs (dcov_sq n X Y)) <= sqrt (sqrt (dcov_sq n X X * dcov_sq n Y Y))) by (apply sqrt_le_1_alt; auto).
  split; [apply Rmult_le_pos; auto; apply Rlt_le, Rinv_0_lt_compat; auto|].
  apply Rmult_le_reg_r with (sqrt (sqrt (dcov_sq n X X * dcov_sq n Y Y))); auto. unfold Rdiv. rewrite Rmult_assoc, Rinv_l by lra. lra.
Qed.
Lemma dcorf_self : forall n X, 0 < dcov_sq n X X -> dcorf n X X = 1.
Proof.
  intros n X Hx. unfold dcorf. rewrite Rabs_pos_eq by lra. rewrite sqrt_sqrt by apply sqrt_pos. pose proof (sqrt_lt_R0 _ Hx). field. lra.
Qed.
Lemma dcorf_sym : forall n X Y, dcorf n X Y = dcorf n Y X.
Proof. intros. unfold dcorf. rewrite dcov_sq_sym. f_equal. ring. Qed.
Lemma scale_rows_matrix : forall n p a X, is_matrix n p X -> is_matrix n p (scale_rows a X).
Proof. intros n p a X HX. apply is_matrix_wf. apply is_matrix_wf in HX. apply wf_mapmap. exact HX. Qed.
Lemma translate_matrix : forall n p c X, is_matrix n p X -> length c = p -> is_matrix n p (translate c X).
Proof.
  intros n p c X [Hl Hf] Hc. split; [unfold translate; rewrite map_length; auto|]. apply Forall_forall. intros r Hr.
  unfold translate in Hr. apply in_map_iff in Hr as [u [<- Hu]]. rewrite Forall_forall in Hf. rewrite plus_l_length; [auto|]. rewrite (Hf u Hu). auto.
Qed.
Lemma dcorf_scale : forall n p a X Y, is_matrix n p X -> a <> 0 -> dcorf n (scale_rows a X) Y = dcorf n X Y.
Proof.
  intros n p a X Y HX Ha. assert (Pa : 0 < Rabs a) by (apply Rabs_pos_lt; auto). unfold dcorf.
  rewrite (dcov_sq_scale n p a X Y HX). rewrite (dcov_sq_scale n p a X _ HX), (dcov_sq_sym n X (scale_rows a X)), (dcov_sq_scale n p a X X HX).
  rewrite !Rabs_mult, !Rabs_Rabsolu. rewrite (sqrt_mult (Rabs a) (Rabs (dcov_sq n X Y))) by (try apply Rabs_pos).
  rewrite <- Rmult_assoc. rewrite (sqrt_mult (Rabs a * Rabs a)) by (try apply Rabs_pos; nra). rewrite sqrt_square by lra.
  rewrite sqrt_mult by (try lra; apply sqrt_pos). pose proof (sqrt_lt_R0 _ Pa) as Sa.
  unfold Rdiv. rewrite !Rinv_mult.
  set (A := sqrt (Rabs (dcov_sq n X Y))). set (B := / sqrt (sqrt (Rabs (dcov_sq n X X)))). set (D := / sqrt (sqrt (Rabs (dcov_sq n Y Y)))).
  replace (sqrt (Rabs a) * A * (/ sqrt (Rabs a) * B * D)) with ((sqrt (Rabs a) * / sqrt (Rabs a)) * (A * (B * D))) by ring.
  rewrite Rinv_r by lra. ring.
Qed.
Lemma dcorf_translate : forall n p c X Y, is_matrix n p X -> length c = p -> dcorf n (translate c X) Y = dcorf n X Y.
Proof.
  intros n p c X Y HX Hc. unfold dcorf. rewrite !(dcov_sq_translate n p c X _ HX Hc), (dcov_sq_sym n X (translate c X)), (dcov_sq_translate n p c X X HX Hc). reflexivity.
Qed.
