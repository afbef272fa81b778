(** Lemmas about the spatial median, kstepLTS, scaleTau2 and wrapping (C14-C18). *)

From Coq Require Import Reals List Arith ZArith Bool Lia Lra Permutation Sorted.
Import ListNotations.
From Verif Require Import Num Err Vec VecR OrdR L_Mat L_Lin S_Stats L_Stats M_Utils M_Preproc M_Robcent
  L_Scaling L_Scaling2.
Open Scope R_scope.

Lemma vdiff_vsub : forall u v, vdiff u v = vsub u v.
Proof.
  intros u; induction u as [|x u IH]; intros [|y v]; cbn; auto. unfold vdiff in IH. unfold vsub in IH. rewrite IH; reflexivity.
Qed.
Lemma sqdist_dot : forall u v, sqdist u v = dot (vsub u v) (vsub u v).
Proof. intros; unfold sqdist; rewrite sqlen_dot, vdiff_vsub; reflexivity. Qed.
Lemma sqdist_nonneg : forall u v, 0 <= sqdist u v.
Proof. intros; rewrite sqdist_dot; apply dot_self_nonneg. Qed.
Lemma edist_vnorm : forall u v, edist u v = vnorm (vsub u v).
Proof. intros; unfold edist; rewrite sqdist_dot, norm_dot; reflexivity. Qed.

Lemma euclidnorm_R : forall x : list R, euclidnorm x = vnorm x.
Proof. intros x; unfold euclidnorm; rewrite vanynan_R; reflexivity. Qed.

Lemma diffmat_rows : forall a (X : list (list R)), diffmat a X = map (fun r => vsub r a) X.
Proof. reflexivity. Qed.

Lemma C14_objective_l : forall X a, l1m_objective a X = total_distance X a.
Proof.
  intros X a. unfold l1m_objective, total_distance. rewrite manynan_R, diffmat_rows, map_map.
  change (vsum (map (fun r => euclidnorm (vsub r a)) X) = vsum (map (fun r => edist r a) X)). f_equal. apply map_ext. intros r. rewrite euclidnorm_R, edist_vnorm. reflexivity.
Qed.

(** the scaled difference of one row *)
Definition sgn_row (r a : list R) : list R :=
  let d := vnorm (vsub r a) in map (fun x => x / (if Req_EM_T d 0 then 1 else d)) (vsub r a).

Lemma l1m_jacobian_R : forall n p (X : list (list R)) a, wf n p X -> length a = p ->
  l1m_jacobian a X = map (fun c => -1 * vsum c) (cols (map (fun r => sgn_row r a) X)) /\
  wf n p (map (fun r => sgn_row r a) X).
Proof.
  intros n p X a Hw Ha. split.
  - unfold l1m_jacobian. rewrite manynan_R.
    assert (E : map2 (fun r d => map (fun x => ndiv x d) r) (diffmat a X) (handle_zeros (map euclidnorm (diffmat a X)))
                = map (fun r => sgn_row r a) X).
    { rewrite diffmat_rows. unfold handle_zeros. rewrite !map_map. clear. induction X as [|r X IH]; cbn [map map2]; auto.
      f_equal; [|exact IH]. unfold sgn_row. rewrite euclidnorm_R. rnum. unfold Reqb.
      destruct (Req_EM_T (vnorm (vsub r a)) 0); reflexivity. }
    rewrite E. apply map_ext. intros c. rnum. ring.
  - apply (wf_map_rows n p); auto. intros r Hr. unfold sgn_row. rewrite map_length, vsub_length; lia.
Qed.

Lemma sgn_row_scale : forall r a, sgn_row r a = vscale (/ (if Req_EM_T (vnorm (vsub r a)) 0 then 1 else vnorm (vsub r a))) (vsub r a).
Proof. intros r a. unfold sgn_row, vscale. apply map_ext. intros x. rnum. unfold Rdiv. ring. Qed.

Lemma subgrad_row : forall (r a b : list R) p, length r = p -> length a = p -> length b = p ->
  vnorm (vsub r a) - dot (sgn_row r a) (vsub b a) <= vnorm (vsub r b).
Proof.
  intros r a b p Hr Ha Hb. rewrite sgn_row_scale, dot_vscale_l.
  set (u := vsub r a). set (v := vsub r b).
  assert (Hu : length u = p) by (unfold u; rewrite vsub_length; lia).
  assert (Hv : length v = p) by (unfold v; rewrite vsub_length; lia).
  assert (Hw : length (vsub b a) = p) by (rewrite vsub_length; lia).
  assert (E : vsub b a = vsub u v).
  { apply (list_ext _ _ 0); [rewrite (vsub_length u v) by lia; lia|]. intros i Hi. rewrite Hw in Hi.
    unfold u, v in *. rewrite !nth_vsub; rewrite ?vsub_length; try lia. ring. }
  rewrite E, dot_vsub_r by lia. 
  destruct (Req_EM_T (vnorm u) 0) as [Ez|Ez].
  - pose proof (norm_sq u) as Hs. rewrite Ez in Hs. 
    assert (Hz : Forall (fun x => x = 0) u) by (apply dot_self_zero; lra).
    rewrite (dot_zero_l u v Hz), (dot_zero_l u u Hz). pose proof (norm_nonneg v). lra.
  - pose proof (norm_nonneg u) as Hn. pose proof (norm_sq u) as Hs.
    assert (Hcs := cauchy_schwarz u v ltac:(lia)).
    assert (Hd : dot u v <= vnorm u * vnorm v) by (eapply Rle_trans; [apply Rle_abs|exact Hcs]).
    rewrite <- Hs. replace (vnorm u - / vnorm u * (vnorm u * vnorm u - dot u v)) with (/ vnorm u * dot u v) by (field; auto).
    apply (Rmult_le_reg_l (vnorm u)); [lra|]. rewrite <- Rmult_assoc, Rinv_r, Rmult_1_l by auto. exact Hd.
Qed.

Lemma C14_subgradient_l : forall n p X a b, is_matrix n p X -> (1 <= n)%nat -> length a = p -> length b = p ->
  length (l1m_jacobian a X) = p /\
  total_distance X a + inner (l1m_jacobian a X) (vdiff b a) <= total_distance X b.
Proof.
  intros n p X a b Hw Hn Ha Hb. destruct (l1m_jacobian_R n p X a Hw Ha) as [E Hw2]. split.
  - rewrite E, map_length, cols_length. apply (wf_ncols n p); auto.
  - rewrite inner_dot, vdiff_vsub, E.
    assert (Hl : length (vsub b a) = p) by (rewrite vsub_length; lia).
    rewrite (dot_colsums n p _ (-1) (vsub b a) Hw2 ltac:(lia) Hl). unfold matvec. rewrite map_map.
    unfold total_distance. change sum_of with (@vsum R Num_R).
    apply Rle_trans with (vsum (map (fun r => edist r a - dot (sgn_row r a) (vsub b a)) X)).
    + rewrite vsum_map_minus. lra.
    + apply vsum_le. intros r Hr. rewrite !edist_vnorm. apply (subgrad_row r a b p); auto. apply (wf_row n p X); auto.
Qed.

Lemma C14_stationary_l : forall n p X a, is_matrix n p X -> (1 <= n)%nat -> length a = p ->
  Forall (fun x => x = 0) (l1m_jacobian a X) -> forall b, length b = p -> total_distance X a <= total_distance X b.
Proof.
  intros n p X a Hw Hn Ha Hz b Hb. destruct (C14_subgradient_l n p X a b Hw Hn Ha Hb) as [_ H].
  rewrite inner_dot, (dot_zero_l _ _ Hz) in H. lra.
Qed.

Lemma C14_convex_l : forall n p X a b lam, is_matrix n p X -> (1 <= n)%nat -> length a = p -> length b = p -> 0 <= lam <= 1 ->
  total_distance X (vadd (vscale lam a) (vscale (1 - lam) b)) <= lam * total_distance X a + (1 - lam) * total_distance X b.
Proof.
  intros n p X a b lam Hw Hn Ha Hb Hl. set (c := vadd (vscale lam a) (vscale (1 - lam) b)).
  assert (Hc : length c = p) by (unfold c; rewrite vadd_length; rewrite !vscale_length; lia).
  destruct (C14_subgradient_l n p X c a Hw Hn Hc Ha) as [HJ H1].
  destruct (C14_subgradient_l n p X c b Hw Hn Hc Hb) as [_ H2].
  set (J := l1m_jacobian c X) in *. rewrite inner_dot, vdiff_vsub, dot_vsub_r in H1, H2 by lia.
  assert (E : dot J c = lam * dot J a + (1 - lam) * dot J b).
  { unfold c. rewrite dot_vadd_r by (rewrite !vscale_length; lia). rewrite !dot_vscale_r. reflexivity. }
  rewrite E in H1, H2. nra.
Qed.

(* ------------------------------------------------------------------ *)
(** * C15 *)

Lemma lts_dists_R : forall (X : list (list R)) m, lts_dists X m = map (fun r => sqdist r m) X.
Proof.
  intros X m. unfold lts_dists. rewrite manynan_R. apply map_ext. intros r. rewrite sqdist_dot, dot_self_sqnorm. reflexivity.
Qed.

Lemma filter_combine_map : forall {B} (g : B -> R) (t : R -> bool) l,
  map fst (filter (fun rd => t (snd rd)) (combine l (map g l))) = filter (fun r => t (g r)) l.
Proof.
  intros B g t l; induction l as [|x l IH]; cbn; auto. destruct (t (g x)); cbn; rewrite IH; reflexivity.
Qed.

Definition lts_cut (X : list (list R)) (m : list R) : R :=
  nth ((length X + 1) / 2 - 1) (sort (map (fun r => sqdist r m) X)) 0.
Lemma lts_subset_R : forall (X : list (list R)) m,
  lts_subset X m = filter (fun r => Rleb (sqdist r m) (lts_cut X m)) X.
Proof.
  intros X m. unfold lts_subset. rewrite lts_dists_R. fold (lts_cut X m).
  rewrite (filter_combine_map (fun r => sqdist r m) (fun d => nleb d (lts_cut X m))). reflexivity.
Qed.

Lemma filter_partition : forall {B} (f : B -> bool) l, Permutation l (filter f l ++ filter (fun x => negb (f x)) l).
Proof.
  intros B f l; induction l as [|x l IH]; cbn; auto. destruct (f x); cbn.
  - constructor; exact IH.
  - rewrite IH at 1. apply Permutation_middle.
Qed.

Lemma count_le_filter_map : forall (g : list R -> R) c X,
  count_le c (map g X) = length (filter (fun r => Rleb (g r) c) X).
Proof.
  intros g c X. unfold count_le. induction X as [|r X IH]; cbn [map filter length]; auto.
  destruct (Rleb (g r) c); cbn [length]; rewrite IH; reflexivity.
Qed.

Lemma half_up_pos : forall n, (1 <= n)%nat -> (1 <= (n + 1) / 2 <= n)%nat.
Proof.
  intros n Hn. split.
  - apply Nat.div_le_lower_bound; lia.
  - apply Nat.div_le_upper_bound; lia.
Qed.

Lemma lts_step_R : forall n p (X : list (list R)) m j, wf n p X -> (1 <= n)%nat -> (j < p)%nat ->
  lts_subset X m <> [] -> nth j (lts_step X m) 0 = vmean (col j (lts_subset X m)).
Proof.
  intros n p X m j Hw Hn Hj Hne. unfold lts_step. rewrite manynan_R.
  apply (map_cols_nth vmean).
  rewrite lts_subset_R in *. destruct (filter _ X) as [|r Y] eqn:E; [congruence|].
  cbn. assert (Hr : In r X). { assert (In r (filter (fun r => Rleb (sqdist r m) (lts_cut X m)) X)) by (rewrite E; left; auto). apply filter_In in H; tauto. }
  rewrite (wf_row n p X r Hw Hr). exact Hj.
Qed.

Lemma lts_subset_size : forall (X : list (list R)) m, (1 <= length X)%nat ->
  ((length X + 1) / 2 <= length (lts_subset X m))%nat.
Proof.
  intros X m Hn. rewrite lts_subset_R, <- (count_le_filter_map (fun r => sqdist r m)).
  pose proof (half_up_pos _ Hn) as Hh.
  assert (H : ((length X + 1) / 2 - 1 < count_le (lts_cut X m) (map (fun r => sqdist r m) X))%nat).
  { apply sort_nth_le_count; [rewrite map_length; lia|]. unfold lts_cut. lra. }
  lia.
Qed.

Lemma C15_step_l : forall n p X m, is_matrix n p X -> (1 <= n)%nat ->
  exists S rest, Permutation X (S ++ rest) /\ ((n + 1) / 2 <= length S)%nat /\
    (forall r r', In r S -> In r' rest -> sqdist r m < sqdist r' m) /\
    forall j, (j < p)%nat -> nth j (lts_step X m) 0 = mean_of (column j S).
Proof.
  intros n p X m Hw Hn. exists (lts_subset X m), (filter (fun r => negb (Rleb (sqdist r m) (lts_cut X m))) X).
  assert (Hl : length X = n) by apply (wf_length _ _ _ Hw).
  assert (Hs := lts_subset_size X m ltac:(lia)). rewrite Hl in Hs.
  split; [rewrite lts_subset_R; apply filter_partition|]. split; [exact Hs|]. split.
  - intros r r' Hr Hr'. rewrite lts_subset_R in Hr. apply filter_In in Hr as [_ Hr]. apply filter_In in Hr' as [_ Hr'].
    apply Rleb_true in Hr. apply negb_true_iff, Rleb_false in Hr'. lra.
  - intros j Hj. rewrite mean_of_vmean. apply (lts_step_R n p); auto.
    pose proof (half_up_pos n Hn). intros E. rewrite E in Hs. cbn [length] in Hs. lia.
Qed.

Lemma iter_swap : forall {B} (f : B -> B) k x, Nat.iter k f (f x) = Nat.iter (S k) f x.
Proof.
  intros B f k x. change (Nat.iter (S k) f x) with (f (Nat.iter k f x)). induction k as [|k IH]; [reflexivity|].
  change (f (Nat.iter k f (f x)) = f (f (Nat.iter k f x))). f_equal. exact IH.
Qed.

Lemma lts_loop_iter : forall fuel tol (X : list (list R)) m, exists k, (k <= fuel)%nat /\
  fst (lts_loop fuel tol X m) = Nat.iter k (lts_step X) m /\ snd (lts_loop fuel tol X m) = k /\ (fuel <> 0 -> k <> 0)%nat.
Proof.
  induction fuel as [|f IH]; intros tol X m; cbn [lts_loop].
  - exists 0%nat. cbn; auto.
  - destruct (nltb tol _) eqn:E.
    + destruct (IH tol X (lts_step X m)) as [k [Hk [E1 [E2 _]]]]. destruct (lts_loop f tol X (lts_step X m)) as [r k'] eqn:EL.
      cbn [fst snd] in *. exists (S k). subst k'. repeat split; try lia. rewrite E1. apply iter_swap.
    + exists 1%nat. cbn. repeat split; lia.
Qed.

Lemma C15_iterations_l : forall l1opt maxit tol (X : list (list R)),
  exists k, (k <= maxit)%nat /\ kstepLTS l1opt maxit tol X = Nat.iter k (lts_step X) (l1median l1opt X).
Proof.
  intros l1opt maxit tol X. unfold kstepLTS. destruct (lts_loop_iter maxit tol X (l1median l1opt X)) as [k [H1 [H2 _]]]. eauto.
Qed.

(** sums of the smallest values *)
Lemma vsum_firstn_nth : forall (l : list R) h, (h <= length l)%nat -> vsum (firstn h l) = sumn h (fun k => nth k l 0).
Proof.
  intros l h Hh. rewrite vsum_sumn, firstn_length, Nat.min_l by auto. apply sumn_ext. intros i Hi.
  rewrite <- (firstn_skipn h l) at 2. rewrite app_nth1; auto. rewrite firstn_length; lia.
Qed.
Lemma count_le_app : forall v a b, count_le v (a ++ b) = (count_le v a + count_le v b)%nat.
Proof. intros; unfold count_le; rewrite filter_app, app_length; reflexivity. Qed.
Lemma count_le_perm : forall v l l', Permutation l l' -> count_le v l = count_le v l'.
Proof. intros; unfold count_le; apply filter_length_perm; auto. Qed.
Lemma smallest_sum_le : forall (l a b : list R), Permutation l (a ++ b) ->
  vsum (firstn (length a) (sort l)) <= vsum a.
Proof.
  intros l a b HP.
  assert (Hl : length l = (length a + length b)%nat) by (rewrite (Permutation_length HP), app_length; auto).
  rewrite (vsum_perm a (sort a) (sort_perm a)). rewrite vsum_firstn_nth by (rewrite sort_length; lia).
  rewrite (vsum_sumn (sort a)), sort_length. apply sumn_le. intros k Hk.
  apply sort_nth_le_count; [lia|]. rewrite (count_le_perm _ _ _ HP), count_le_app.
  assert (Hka : (k < count_le (nth k (sort a) 0%R) a)%nat) by (apply sort_nth_le_count; auto; lra). lia.
Qed.
Lemma smallest_sum_split : forall (l a b : list R), Permutation l (a ++ b) ->
  (forall x y, In x a -> In y b -> x <= y) -> vsum (firstn (length a) (sort l)) = vsum a.
Proof.
  intros l a b HP Hab.
  assert (E : sort l = sort a ++ sort b).
  { apply sorted_perm_unique; [apply sort_sorted| |].
    - apply sorted_app; try apply sort_sorted. intros x y Hx Hy. apply Hab.
      + apply (Permutation_in _ (Permutation_sym (sort_perm a))), Hx.
      + apply (Permutation_in _ (Permutation_sym (sort_perm b))), Hy.
    - rewrite <- (sort_perm l), HP. apply Permutation_app; apply sort_perm. }
  rewrite E, firstn_app, sort_length, Nat.sub_diag. cbn [firstn]. rewrite app_nil_r.
  rewrite firstn_all2 by (rewrite sort_length; lia). symmetry. apply vsum_perm, sort_perm.
Qed.

Lemma sum_sq_mean_min : forall (l : list R) c, l <> [] ->
  vsum (map (fun x => (x - vmean l) * (x - vmean l)) l) <= vsum (map (fun x => (x - c) * (x - c)) l).
Proof.
  intros l c Hl. set (m := vmean l).
  assert (E : vsum (map (fun x => (x - c) * (x - c)) l) =
              vsum (map (fun x => (x - m) * (x - m)) l) + INR (length l) * ((m - c) * (m - c))).
  { transitivity (vsum (map (fun x => (x - m) * (x - m) + (2 * (m - c) * x + ((m - c) * (m - c) - 2 * (m - c) * m))) l)).
    - apply vsum_map_ext. intros; ring.
    - rewrite vsum_map_plus. f_equal. rewrite vsum_map_plus, vsum_map_scal, vsum_map_const.
      rewrite map_id. rewrite (vmean_sum l) by auto. fold m. ring. }
  rewrite E. pose proof (pos_INR (length l)). pose proof (Rle_0_sqr (m - c)) as H0. unfold Rsqr in H0. nra.
Qed.

Lemma sqdist_sumn : forall r m p, length r = p -> length m = p ->
  sqdist r m = sumn p (fun j => (nth j r 0 - nth j m 0) * (nth j r 0 - nth j m 0)).
Proof.
  intros r m p Hr Hm. rewrite sqdist_dot. rewrite (dot_sumn _ _ p) by (rewrite vsub_length; lia).
  apply sumn_ext. intros j Hj. rewrite nth_vsub by lia. reflexivity.
Qed.

Lemma sum_sqdist_cols : forall k p (S : list (list R)) m, wf k p S -> length m = p ->
  vsum (map (fun r => sqdist r m) S) =
  sumn p (fun j => vsum (map (fun x => (x - nth j m 0) * (x - nth j m 0)) (col j S))).
Proof.
  intros k p S m Hw Hm.
  rewrite (vsum_map_ext _ (fun r => sumn p (fun j => (nth j r 0 - nth j m 0) * (nth j r 0 - nth j m 0)))).
  2:{ intros r Hr. apply sqdist_sumn; auto. apply (wf_row k p S); auto. }
  unfold sumn. rewrite vsum_exchange. apply vsum_map_ext. intros j _. unfold col. rewrite map_map. reflexivity.
Qed.

Lemma wf_filter : forall n p (f : list R -> bool) X, wf n p X -> wf (length (filter f X)) p (filter f X).
Proof.
  intros n p f X [_ H]. split; auto. rewrite Forall_forall in *. intros r Hr. apply filter_In in Hr as [Hr _]. auto.
Qed.

Lemma lts_step_length : forall n p (X : list (list R)) m, wf n p X -> (1 <= n)%nat -> length (lts_step X m) = p.
Proof.
  intros n p X m Hw Hn. unfold lts_step. rewrite manynan_R, map_length, cols_length.
  pose proof (lts_subset_size X m) as Hs. rewrite (wf_length _ _ _ Hw) in Hs. specialize (Hs Hn).
  pose proof (half_up_pos n Hn).
  rewrite lts_subset_R in *. apply (wf_ncols (length (filter (fun r => Rleb (sqdist r m) (lts_cut X m)) X)) p); [|lia].
  apply (wf_filter n p _ X Hw).
Qed.

Lemma trimmed_objective_unique : forall h X m v, is_trimmed_objective h X m v ->
  v = vsum (firstn h (sort (map (fun r => sqdist r m) X))).
Proof.
  intros h X m v [s [HP [HS ->]]]. rewrite sum_of_vsum. do 2 f_equal.
  apply sorted_perm_unique; auto; [apply sort_sorted|]. rewrite <- HP. apply sort_perm.
Qed.

Lemma C15_monotone_l : forall n p X m cut v1 v2, is_matrix n p X -> (1 <= n)%nat -> length m = p ->
  is_order_stat (map (fun r => sqdist r m) X) ((n + 1) / 2 - 1) cut ->
  length (filter (fun r => if Rle_dec (sqdist r m) cut then true else false) X) = ((n + 1) / 2)%nat ->
  is_trimmed_objective ((n + 1) / 2) X m v1 ->
  is_trimmed_objective ((n + 1) / 2) X (lts_step X m) v2 ->
  v2 <= v1.
Proof.
  intros n p X m cut v1 v2 Hw Hn Hm Hcut Htie Hv1 Hv2.
  apply trimmed_objective_unique in Hv1. apply trimmed_objective_unique in Hv2. subst v1 v2.
  assert (Ec : cut = lts_cut X m).
  { destruct Hcut as [s [HP [HS [_ ->]]]]. unfold lts_cut. rewrite (wf_length _ _ _ Hw). f_equal.
    apply sorted_perm_unique; auto; [apply sort_sorted|]. rewrite <- HP. apply sort_perm. }
  subst cut.
  set (h := ((n + 1) / 2)%nat) in *. 
  set (f := fun r => Rleb (sqdist r m) (lts_cut X m)).
  assert (Ef : filter (fun r => if Rle_dec (sqdist r m) (lts_cut X m) then true else false) X = filter f X) by reflexivity.
  rewrite Ef in Htie. set (S := filter f X) in *. set (T := filter (fun x => negb (f x)) X).
  assert (HP : Permutation X (S ++ T)) by apply filter_partition.
  set (m2 := lts_step X m).
  assert (Hm2 : length m2 = p) by (apply (lts_step_length n p); auto).
  assert (HPm : forall q, Permutation (map (fun r => sqdist r q) X) (map (fun r => sqdist r q) S ++ map (fun r => sqdist r q) T)).
  { intros q. rewrite <- map_app. apply Permutation_map, HP. }
  assert (HwS : wf (length S) p S) by (apply (wf_filter n p _ X Hw)).
  assert (Hh : (1 <= h)%nat) by (apply half_up_pos; auto).
  apply Rle_trans with (vsum (map (fun r => sqdist r m2) S)).
  - rewrite <- Htie. rewrite <- (map_length (fun r => sqdist r m2) S). apply (smallest_sum_le _ _ _ (HPm m2)).
  - apply Rle_trans with (vsum (map (fun r => sqdist r m) S)).
    + rewrite !(sum_sqdist_cols (length S) p) by auto. apply sumn_le. intros j Hj.
      assert (E : nth j m2 0 = vmean (col j S)).
      { unfold m2. rewrite (lts_step_R n p); auto; rewrite lts_subset_R; [reflexivity|].
        fold f. fold S. intros E. rewrite E in Htie. cbn [length] in Htie. lia. }
      rewrite E. apply sum_sq_mean_min. intros E2. apply (f_equal (@length R)) in E2. rewrite col_length in E2. cbn in E2. lia.
    + right. symmetry. rewrite <- Htie. rewrite <- (map_length (fun r => sqdist r m) S).
      apply (smallest_sum_split _ _ _ (HPm m)). intros x y Hx Hy.
      apply in_map_iff in Hx as [r [<- Hr]]. apply in_map_iff in Hy as [r' [<- Hr']].
      apply filter_In in Hr as [_ Hr]. apply filter_In in Hr' as [_ Hr']. unfold f in *.
      apply Rleb_true in Hr. apply negb_true_iff, Rleb_false in Hr'. lra.
Qed.

(* ------------------------------------------------------------------ *)
(** * C16 *)

(** the scales of all columns share one factor: they differ only through the
    raw (unscaled) MADs *)
Lemma C16_common_factor_l : forall n p es2 c1 c2 co fi X, is_matrix n p X -> (1 <= n)%nat ->
  exists f, forall j d, (j < p)%nat -> is_mad 1 (column j X) d ->
    nth j (scaleTau2 es2 c1 c2 co fi X) 0 = d * f.
Proof.
  intros n p es2 c1 c2 co fi X Hw Hn. unfold scaleTau2. cbv zeta.
  set (f := nsqrt _). exists f. intros j d Hj Hd.
  assert (Hlm : length (median X) = p) by (rewrite median_length; apply (wf_ncols n p); auto).
  assert (Hw' : wf n p (map (map nabs) (rows_op nsub X (median X)))) by (apply wf_mapmap, wf_map2_rows; auto).
  rewrite (nth_map_lt _ _ _ 0) by (rewrite median_length, (wf_ncols n p); auto).
  rnum. f_equal. rewrite (median_nth n p) by auto.
  apply is_mad_unique in Hd. rewrite Hd. change (column j X) with (col j X). unfold Rdiv. rewrite Rinv_1, Rmult_1_r.
  f_equal. rewrite (col_mapmap n p); [|apply wf_map2_rows; auto|auto]. unfold rows_op.
  rewrite (col_map2_rows n p) by auto. rewrite map_map. rnum. rewrite (median_nth n p) by auto. reflexivity.
Qed.

(** the textbook tau scale of one sample *)
Definition tau_scale (k c1 c2 : R) (x : list R) (s : R) : Prop :=
  exists med s0 mu, is_median x med /\ is_median (map (fun y => Rabs (y - med)) x) s0 /\
    (let w := fun y => let u := Rabs (y - med) / (s0 * c1) in
                       if Rle_dec u 1 then (1 - u * u) * (1 - u * u) else 0 in
     mu = sum_of (map (fun y => y * w y) x) / sum_of (map w x)) /\
    s = s0 * sqrt (sum_of (map (fun y => Rmin (((y - mu) / s0) * ((y - mu) / s0)) (c2 * c2)) x) / k).

Lemma wf1_map : forall x : list R, wf (length x) 1 (map (fun y => [y]) x).
Proof.
  intros x. split; [apply map_length|]. apply Forall_forall. intros r Hr. apply in_map_iff in Hr as [y [<- _]]. reflexivity.
Qed.
Lemma median_single : forall x : list R, x <> [] -> median (map (fun y => [y]) x) = [vmedian x].
Proof.
  intros x Hx. rewrite median_R. unfold cols.
  rewrite (wf_ncols (length x) 1 _ (wf1_map x)) by (destruct x; [congruence|cbn; lia]).
  cbn [seq map]. f_equal. f_equal. unfold col. rewrite map_map. cbn [nth]. apply map_id.
Qed.
Lemma msum_single : forall (f : R -> R) (x : list R), msum (map (fun y => [f y]) x) = vsum (map f x).
Proof.
  intros f x. unfold msum. rewrite map_map. apply vsum_map_ext. intros y _. cbn. apply Rplus_0_r.
Qed.

Lemma C16_single_column_l : forall es2 c1 c2 co fi x, x <> [] -> 0 < c1 -> 0 <= c2 ->
  exists s, scaleTau2 es2 c1 c2 co fi (map (fun y => [y]) x) = [s] /\
    tau_scale (if co then (if fi then (INR (length x) - 2) * es2 else INR (length x) * es2) else INR (length x)) c1 c2 x s.
Proof.
  intros es2 c1 c2 co fi x Hx Hc1 Hc2. unfold scaleTau2. cbv zeta. rewrite manynan_R, map_length, !nnat_R.
  rewrite (median_single x Hx). set (m := vmedian x).
  assert (E1 : rows_op nsub (map (fun y => [y]) x) [m] = map (fun y => [y - m]) x).
  { unfold rows_op. rewrite map_map. reflexivity. }
  rewrite E1.
  assert (E2 : map (map nabs) (map (fun y => [y - m]) x) = map (fun y => [y]) (map (fun y => Rabs (y - m)) x)).
  { rewrite !map_map. reflexivity. }
  rewrite E2. assert (Hx2 : map (fun y => Rabs (y - m)) x <> []) by (destruct x; [congruence|discriminate]).
  rewrite (median_single _ Hx2). set (s0 := vmedian (map (fun y => Rabs (y - m)) x)).
  replace (nltb n0 c1) with true by (symmetry; apply Rltb_true; exact Hc1).
  cbn [map]. 
  assert (E3 : map (map (fun u => nsqr (ndiv (nadd (nabs (nsub n1 (nsqr u))) (nsub n1 (nsqr u))) (INR 2))))
       (rows_op ndiv (map (fun y => [y]) (map (fun y => Rabs (y - m)) x)) [nmul s0 c1])
     = map (fun y => [let u := Rabs (y - m) / (s0 * c1) in if Rle_dec u 1 then (1 - u * u) * (1 - u * u) else 0]) x).
  { unfold rows_op. rewrite !map_map. apply map_ext. intros y. cbn [map2 map]. f_equal. cbv zeta.
    set (u := ndiv (Rabs (y - m)) (nmul s0 c1)).
    assert (Eu : u = Rabs (y - m) / (s0 * c1)) by reflexivity. rewrite <- Eu.
    unfold nsqr. rnum.
    destruct (Rle_dec 0 u) as [Hu|Hu].
    - destruct (Rle_dec u 1) as [H1|H1].
      + rewrite Rabs_right by nra. cbn. field.
      + rewrite Rabs_left by nra. cbn. field.
    - destruct (Rle_dec u 1) as [H1|H1]; [|lra].
      (* s0 >= 0 and |y-m| >= 0: u cannot be negative *)
      exfalso. apply Hu. rewrite Eu.
      assert (Hs : 0 <= s0).
      { pose proof (vmadR_nonneg x) as Hmad. unfold vmadR in Hmad. fold m in Hmad. fold s0 in Hmad.
        pose proof madcR_pos as Hc. apply (Rmult_le_compat_r madcR) in Hmad; [|lra].
        unfold Rdiv in Hmad. rewrite Rmult_assoc, Rinv_l in Hmad by lra. lra. }
      destruct (Req_EM_T (s0 * c1) 0) as [Ez|Ez].
      + unfold Rdiv. rewrite Ez, Rinv_0. lra.
      + apply Rmult_le_pos; [apply Rabs_pos|]. left. apply Rinv_0_lt_compat. nra. }
  rewrite E3. clear E3.
  set (w := fun y => let u := Rabs (y - m) / (s0 * c1) in if Rle_dec u 1 then (1 - u * u) * (1 - u * u) else 0).
  change (map (fun y : R => [let u := Rabs (y - m) / (s0 * c1) in if Rle_dec u 1 then (1 - u * u) * (1 - u * u) else 0]) x)
    with (map (fun y => [w y]) x).
  assert (E4 : map2 vmul (map (fun y => [y]) x) (map (fun y => [w y]) x) = map (fun y => [y * w y]) x).
  { rewrite map2_map_l, map2_map_r, map2_same. reflexivity. }
  rewrite E4, !msum_single. rnum.
  eexists. split; [reflexivity|].
  exists m, s0, (vsum (map (fun y => y * w y) x) / vsum (map w x)).
  split; [apply is_median_vmedian; auto|]. split; [apply is_median_vmedian; auto|]. split; [reflexivity|].
  set (mu := vsum (map (fun y => y * w y) x) / vsum (map w x)).
  f_equal. f_equal. f_equal.
  assert (E5 : map (fun r => if existsb (fun v => Rltb (nsqr c2) v) r then map (fun _ => nsqr c2) r else r)
     (map (map nsqr) (rows_op ndiv (map (map (fun v => v - mu)) (map (fun y => [y]) x)) [s0]))
     = map (fun y => [Rmin ((y - mu) / s0 * ((y - mu) / s0)) (c2 * c2)]) x).
  { unfold rows_op. rewrite !map_map. apply map_ext. intros y. cbn [map map2 existsb]. unfold nsqr. rnum. rewrite orb_false_r.
    destruct (Rltb (c2 * c2) ((y - mu) / s0 * ((y - mu) / s0))) eqn:E; rcmp_all.
    - rewrite Rmin_right by lra. reflexivity.
    - rewrite Rmin_left by lra. reflexivity. }
  unfold nsqr in E5 |- *. rnum. rewrite E5. rewrite msum_single. destruct co, fi; reflexivity.
Qed.

(* ------------------------------------------------------------------ *)
(** * C17 *)

Lemma tanh_pos_lt1 : forall x, 0 < x -> 0 < tanh x < 1.
Proof.
  intros x Hx. unfold tanh, sinh, cosh.
  assert (H1 : exp (- x) < exp x) by (apply exp_increasing; lra).
  pose proof (exp_pos x). pose proof (exp_pos (- x)).
  replace ((exp x - exp (- x)) / 2 / ((exp x + exp (- x)) / 2)) with ((exp x - exp (- x)) / (exp x + exp (- x))) by (field; lra).
  split.
  - apply Rdiv_lt_0_compat; lra.
  - apply (Rmult_lt_reg_r (exp x + exp (- x))); [lra|]. unfold Rdiv. rewrite Rmult_assoc, Rinv_l by lra. lra.
Qed.

(** the shape of the wrapping function *)
Definition wrapping_shape (psi : R -> R) : Prop :=
  (forall z, Rabs z < 3/2 -> psi z = z) /\
  (forall z, 4 <= Rabs z -> psi z = 0) /\
  (forall z, 3/2 <= Rabs z < 4 -> 0 < psi z * z /\ Rabs (psi z) < 1540793/1000000) /\
  (forall z, psi (- z) = - psi z).

Lemma wrap1_R : forall z, wrap1 z =
  if Rle_dec 4 (Rabs z) then 0
  else if Rle_dec (3/2) (Rabs z) then 1540793/1000000 * tanh (8622731/10000000 * (4 - Rabs z)) * Rabs z / z else z.
Proof.
  intros z. unfold wrap1, wrap_c, wrap_b, wrap_q1, wrap_q2. rewrite !nnat_R. rnum.
  replace (INR 4) with 4 by (cbn; lra).
  destruct (Rltb (Rabs z) 4) eqn:E1, (Rleb (3/2) (Rabs z)) eqn:E2; cbn [andb];
    rcmp_all; destruct (Rle_dec 4 (Rabs z)); try lra; destruct (Rle_dec (3/2) (Rabs z)); try lra; auto;
    try (destruct (Rleb 4 (Rabs z)) eqn:E3; rcmp_all; auto; lra).
Qed.

Lemma C17_shape_l : wrapping_shape wrap1.
Proof.
  repeat split.
  - intros z Hz. rewrite wrap1_R. destruct (Rle_dec 4 (Rabs z)); [lra|]. destruct (Rle_dec (3/2) (Rabs z)); [lra|reflexivity].
  - intros z Hz. rewrite wrap1_R. destruct (Rle_dec 4 (Rabs z)); [reflexivity|lra].
  - rewrite wrap1_R. destruct (Rle_dec 4 (Rabs z)); [lra|]. destruct (Rle_dec (3/2) (Rabs z)); [|lra].
    assert (Hz : z <> 0) by (intros ->; rewrite Rabs_R0 in *; lra).
    destruct (tanh_pos_lt1 (8622731/10000000 * (4 - Rabs z))) as [H1 H2]; [lra|].
    set (th := tanh _) in *. unfold Rdiv at 1. 
    replace (1540793 / 1000000 * th * Rabs z * / z * z) with (1540793 / 1000000 * th * Rabs z) by (field; auto).
    assert (0 < Rabs z) by (apply Rabs_pos_lt; auto). apply Rmult_lt_0_compat; [apply Rmult_lt_0_compat; [lra|exact H1]|assumption].
  - rewrite wrap1_R. destruct (Rle_dec 4 (Rabs z)); [lra|]. destruct (Rle_dec (3/2) (Rabs z)); [|lra].
    assert (Hz : z <> 0) by (intros ->; rewrite Rabs_R0 in *; lra).
    destruct (tanh_pos_lt1 (8622731/10000000 * (4 - Rabs z))) as [H1 H2]; [lra|].
    set (th := tanh _) in *. unfold Rdiv at 1. rewrite !Rabs_mult, Rabs_inv, Rabs_Rabsolu.
    assert (0 < Rabs z) by (apply Rabs_pos_lt; auto).
    rewrite Rmult_assoc, Rinv_r by lra. rewrite (Rabs_right (1540793 / 1000000)), (Rabs_right th) by lra. lra.
  - intros z. rewrite !wrap1_R, Rabs_Ropp. destruct (Rle_dec 4 (Rabs z)); [lra|].
    destruct (Rle_dec (3/2) (Rabs z)); [|reflexivity].
    assert (Hz : z <> 0) by (intros ->; rewrite Rabs_R0 in *; lra). field; auto.
Qed.

Lemma mad_single : forall x : list R, x <> [] -> mad (map (fun y => [y]) x) = [vmadR x].
Proof.
  intros x Hx. assert (Hl : (0 < length x)%nat) by (destruct x; [congruence|cbn; lia]).
  assert (Hm := mad_length (length x) 1 _ (wf1_map x) Hl).
  apply (list_ext _ _ 0); [exact Hm|].
  intros i Hi. rewrite Hm in Hi. assert (i = 0)%nat by lia. subst i.
  rewrite (mad_nth (length x) 1 _ _ (wf1_map x) Hl) by lia.
  cbn [nth]. f_equal. unfold col. rewrite map_map. cbn [nth]. apply map_id.
Qed.

Lemma C17_wrap_column_l : forall locX scaleX dd, dd <> [] ->
  exists r loc sca, wrap_univ true locX scaleX dd = Ok r /\ length r = length dd /\
    is_median dd loc /\ is_mad madcR dd sca /\
    (sca <> 0 -> exists psi, wrapping_shape psi /\
       forall i, (i < length dd)%nat -> nth i r 0 = loc + sca * psi ((nth i dd 0 - loc) / sca)).
Proof.
  intros locX scaleX dd Hd. unfold wrap_univ. cbv zeta. rewrite (median_single dd Hd), (mad_single dd Hd). cbn [nth].
  eexists; exists (vmedian dd), (vmadR dd). split; [reflexivity|]. split; [apply map_length|].
  split; [apply is_median_vmedian; auto|]. split; [apply is_mad_vmad; auto|].
  intros Hs. exists wrap1. split; [apply C17_shape_l|]. intros i Hi. rewrite (nth_map_lt _ _ _ 0) by auto. rnum. ring.
Qed.

(* ------------------------------------------------------------------ *)
(** * C18 *)

Lemma wrap_univ_ignores : forall {A} `{Num A} l s l' s' dd, wrap_univ true l s dd = wrap_univ true l' s' dd.
Proof. reflexivity. Qed.

Lemma mapM_ext_in : forall {B C} (f g : B -> res C) l, (forall x, In x l -> f x = g x) -> mapM f l = mapM g l.
Proof.
  intros B C f g l; induction l as [|x l IH]; intros Hf; cbn; auto.
  rewrite (Hf x) by (left; auto). rewrite IH by (intros; apply Hf; right; auto). reflexivity.
Qed.

Lemma C18_ignores_l : forall (st st' : list R * list R) x,
  length (fst st) = length (fst st') -> length (snd st) = length (snd st') ->
  wrapper_transform st x = wrapper_transform st' x /\ wrapper_predict st x = wrapper_predict st' x.
Proof.
  intros [l s] [l' s'] x Hl Hs. cbn in Hl, Hs.
  assert (E : wrap (check_input x) l s = wrap (check_input x) l' s').
  { unfold wrap. f_equal. apply mapM_ext_in. intros i _.
    destruct (nth_error l i) eqn:E1, (nth_error l' i) eqn:E2.
    - destruct (nth_error s i) eqn:E3, (nth_error s' i) eqn:E4; auto.
      + apply nth_error_None in E4. rewrite <- Hs in E4. apply nth_error_None in E4. congruence.
      + apply nth_error_None in E3. rewrite Hs in E3. apply nth_error_None in E3. congruence.
    - apply nth_error_None in E2. rewrite <- Hl in E2. apply nth_error_None in E2. congruence.
    - apply nth_error_None in E1. rewrite Hl in E1. apply nth_error_None in E1. congruence.
    - reflexivity. }
  split; exact E.
Qed.

(** affine equivariance of the tau scale (C05) *)
Definition tau_w (c1 med s0 y : R) : R :=
  let u := Rabs (y - med) / (s0 * c1) in if Rle_dec u 1 then (1 - u * u) * (1 - u * u) else 0.
Lemma tau_w_nonneg : forall c1 med s0 y, 0 <= tau_w c1 med s0 y.
Proof.
  intros. unfold tau_w. destruct Rle_dec; [|lra].
  pose proof (Rle_0_sqr (1 - Rabs (y - med) / (s0 * c1) * (Rabs (y - med) / (s0 * c1)))) as Hs. unfold Rsqr in Hs. exact Hs.
Qed.
Lemma median_low_value : forall l : list R, l <> [] -> exists y, In y l /\ y <= vmedian l.
Proof.
  intros l Hl. destruct (vmedian_lohi l Hl) as (lo & hi & H). 
  exists (nth 0 (sort l) 0). 
  assert (Hlen : (0 < length l)%nat) by (destruct l; [congruence|cbn; lia]).
  split; [apply sort_nth_in; auto|].
  destruct (vmedian_bounds l (nth 0 (sort l) 0) (nth (length l - 1) (sort l) 0) Hl) as [Hb _]; [|exact Hb].
  apply Forall_forall. intros x Hx.
  apply (Permutation_in _ (sort_perm l)) in Hx. apply (In_nth _ _ 0) in Hx as [k [Hk <-]]. rewrite sort_length in Hk.
  split; apply sorted_nth_mono; try apply sort_sorted; rewrite ?sort_length; lia.
Qed.
Lemma tau_weights_pos : forall c1 x, x <> [] -> 1 < c1 ->
  vmedian (map (fun y => Rabs (y - vmedian x)) x) <> 0 ->
  0 < vsum (map (tau_w c1 (vmedian x) (vmedian (map (fun y => Rabs (y - vmedian x)) x))) x).
Proof.
  intros c1 x Hx Hc Hs0. set (s0 := vmedian _) in *.
  assert (Hne : map (fun y => Rabs (y - vmedian x)) x <> []) by (destruct x; [congruence|discriminate]).
  assert (Hs : 0 < s0).
  { assert (0 <= s0); [|lra]. unfold s0. destruct (median_low_value _ Hne) as [y [Hy Hy2]].
    apply in_map_iff in Hy as [z [<- Hz]]. pose proof (Rabs_pos (z - vmedian x)). lra. }
  destruct (median_low_value _ Hne) as [y [Hy Hy2]]. fold s0 in Hy2.
  apply in_map_iff in Hy as [z [<- Hz]].
  assert (Hw : 0 < tau_w c1 (vmedian x) s0 z).
  { assert (Hb : 0 <= Rabs (z - vmedian x) / (s0 * c1) < 1).
    { pose proof (Rabs_pos (z - vmedian x)). split.
      - apply Rmult_le_pos; [auto|]. left. apply Rinv_0_lt_compat. nra.
      - apply (Rmult_lt_reg_r (s0 * c1)); [nra|]. unfold Rdiv. rewrite Rmult_assoc, Rinv_l by nra. nra. }
    unfold tau_w. destruct Rle_dec; [|lra]. set (u := Rabs (z - vmedian x) / (s0 * c1)) in *. assert (0 < 1 - u * u) by nra. nra. }
  assert (Hle : tau_w c1 (vmedian x) s0 z <= vsum (map (tau_w c1 (vmedian x) s0) x)); [|lra].
  apply vsum_in_le.
  - apply Forall_forall. intros v Hv. apply in_map_iff in Hv as [y [<- _]]. apply tau_w_nonneg.
  - apply in_map, Hz.
Qed.

Lemma C05_tau_l : forall es2 c1 c2 co fi x a b, x <> [] -> 1 < c1 -> 0 <= c2 -> a <> 0 -> ~ is_mad 1 x 0 ->
  exists s, scaleTau2 es2 c1 c2 co fi (map (fun y => [y]) x) = [s] /\
            scaleTau2 es2 c1 c2 co fi (map (fun y => [a * y + b]) x) = [Rabs a * s].
Proof.
  intros es2 c1 c2 co fi x a b Hx Hc1 Hc2 Ha Hmad.
  destruct (C16_single_column_l es2 c1 c2 co fi x Hx ltac:(lra) Hc2) as (s & E & med & s0 & mu & Hm & Hs0 & Hmu & Hs).
  assert (Hx' : map (fun y => a * y + b) x <> []) by (destruct x; [congruence|discriminate]).
  destruct (C16_single_column_l es2 c1 c2 co fi _ Hx' ltac:(lra) Hc2) as (s' & E' & med' & s0' & mu' & Hm' & Hs0' & Hmu' & Hs').
  rewrite map_map in E'. exists s. split; [exact E|]. rewrite E'. f_equal.
  apply is_median_unique in Hm, Hs0, Hm', Hs0'.
  assert (Hxd : map (fun y => Rabs (y - med)) x <> []) by (destruct x; [congruence|discriminate]).
  assert (Hs00 : s0 <> 0).
  { intros Hz. apply Hmad. exists med, 0. rewrite Hm. split; [apply is_median_vmedian; auto|]. split; [|lra].
    rewrite <- Hm, <- Hz, Hs0. apply is_median_vmedian; auto. }
  rewrite vmedian_affine in Hm' by auto. rewrite <- Hm in Hm'.
  rewrite map_map in Hs0'.
  assert (Es0 : s0' = Rabs a * s0).
  { rewrite Hs0', Hs0. rewrite <- (Rplus_0_r (Rabs a * _)).
    rewrite <- vmedian_affine by auto. f_equal. rewrite map_map. apply map_ext. intros y.
    rewrite Hm'. replace (a * y + b - (a * med + b)) with (a * (y - med)) by ring. rewrite Rabs_mult. ring. }
  assert (HRa : Rabs a <> 0) by (apply Rabs_no_R0; auto).
  change (mu = vsum (map (fun y => y * tau_w c1 med s0 y) x) / vsum (map (tau_w c1 med s0) x)) in Hmu.
  change (mu' = vsum (map (fun y => y * tau_w c1 med' s0' y) (map (fun y => a * y + b) x)) / vsum (map (tau_w c1 med' s0') (map (fun y => a * y + b) x))) in Hmu'.
  rewrite !map_map in Hmu'.
  assert (Ew : forall y, tau_w c1 med' s0' (a * y + b) = tau_w c1 med s0 y).
  { intros y. unfold tau_w. rewrite Hm', Es0. replace (a * y + b - (a * med + b)) with (a * (y - med)) by ring. rewrite Rabs_mult.
    replace (Rabs a * Rabs (y - med) / (Rabs a * s0 * c1)) with (Rabs (y - med) / (s0 * c1)); [reflexivity|]. field. repeat split; auto; lra. }
  assert (HW : 0 < vsum (map (tau_w c1 med s0) x)).
  { rewrite Hs0, Hm. apply tau_weights_pos; auto. rewrite <- Hm, <- Hs0. exact Hs00. }
  assert (Emu : mu' = a * mu + b).
  { rewrite Hmu', Hmu.
    rewrite (vsum_map_ext (fun y => tau_w c1 med' s0' (a * y + b)) (tau_w c1 med s0)) by (intros; apply Ew).
    rewrite (vsum_map_ext (fun y => (a * y + b) * tau_w c1 med' s0' (a * y + b)) (fun y => a * (y * tau_w c1 med s0 y) + b * tau_w c1 med s0 y)) by (intros; rewrite Ew; ring).
    rewrite vsum_map_plus, !vsum_map_scal. field. lra. }
  rewrite Hs', Hs, map_map, map_length, Es0, Rmult_assoc. f_equal. f_equal. f_equal. f_equal. f_equal. apply map_ext. intros y. f_equal.
  rewrite Emu. replace (a * y + b - (a * mu + b)) with (a * (y - mu)) by ring.
  replace (a * (y - mu) / (Rabs a * s0) * (a * (y - mu) / (Rabs a * s0))) with ((a * a) / (Rabs a * Rabs a) * ((y - mu) / s0 * ((y - mu) / s0))) by (field; split; auto).
  rewrite <- Rabs_mult, (Rabs_right (a * a)) by nra. field. split; auto.
Qed.
