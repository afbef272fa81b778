(** Lemmas about doubly centred distances. *)

From Coq Require Import String Reals List Arith ZArith Bool Lia Lra Psatz.
Import ListNotations.
From Verif Require Import Num Err Vec VecR OrdR L_Mat L_Lin S_Stats L_Stats M_Utils M_Preproc L_Radial L_Preproc M_Dicomo S_Dicomo L_Dicomo L_Dicomo2.
Import List. Open Scope R_scope.

Lemma sum_below_sumn : forall n f, sum_below n f = sumn n f.
Proof. induction n as [|n IH]; intros f; [reflexivity|]. cbn [sum_below]. rewrite IH, sumn_S. reflexivity. Qed.
Lemma sum_below_ext : forall n f g, (forall i, (i < n)%nat -> f i = g i) -> sum_below n f = sum_below n g.
Proof. intros. rewrite !sum_below_sumn. apply sumn_ext; auto. Qed.

(** the matrix with entries f i j *)
Definition famat (n : nat) (f : nat -> nat -> R) : list (list R) := map (fun i => map (f i) (seq 0 n)) (seq 0 n).

Lemma famat_length : forall n f, length (famat n f) = n.
Proof. intros; unfold famat; rewrite map_length, seq_length; auto. Qed.
Lemma famat_row : forall n f i, (i < n)%nat -> nth i (famat n f) [] = map (f i) (seq 0 n).
Proof.
  intros n f i Hi. unfold famat. rewrite (nth_map_lt _ _ _ 0%nat) by (rewrite seq_length; auto). rewrite seq_nth by auto. reflexivity.
Qed.
Lemma famat_mget : forall n f i j, (i < n)%nat -> (j < n)%nat -> mget (famat n f) i j = f i j.
Proof.
  intros n f i j Hi Hj. unfold mget. rewrite famat_row by auto. rnum. rewrite (nth_map_lt _ _ _ 0%nat) by (rewrite seq_length; auto).
  rewrite seq_nth by auto. reflexivity.
Qed.
Lemma famat_wf : forall n f, wf n n (famat n f).
Proof.
  intros n f. split; [apply famat_length|]. apply Forall_forall. intros r Hr. unfold famat in Hr. apply in_map_iff in Hr as [i [<- _]].
  rewrite map_length, seq_length. reflexivity.
Qed.
Lemma famat_ext : forall n f g, (forall i j, (i < n)%nat -> (j < n)%nat -> f i j = g i j) -> famat n f = famat n g.
Proof.
  intros n f g Hfg. unfold famat. apply map_ext_in. intros i Hi. apply in_seq in Hi. apply map_ext_in. intros j Hj. apply in_seq in Hj. apply Hfg; lia.
Qed.
Lemma famat_of : forall n a, wf n n a -> a = famat n (mget a).
Proof.
  intros n a Ha. apply (mat_ext n n); auto; [apply famat_wf|]. intros i j Hi Hj. rewrite famat_mget by auto. reflexivity.
Qed.

Lemma vsum_concat : forall (L : list (list R)), vsum (concat L) = vsum (map vsum L).
Proof. induction L as [|r L IH]; [reflexivity|]. cbn [concat map]. rewrite vsum_app, vsum_cons, IH. reflexivity. Qed.
Lemma famat_sum : forall n f, vsum (concat (famat n f)) = sumn n (fun i => sumn n (f i)).
Proof. intros n f. rewrite vsum_concat. unfold famat. rewrite map_map. reflexivity. Qed.
Lemma concat_len : forall n p (L : list (list R)), wf n p L -> length (concat L) = (n * p)%nat.
Proof.
  intros n p L. revert n. induction L as [|r L IH]; intros n [Hl Hf]; cbn in Hl; [subst n; reflexivity|]. subst n.
  inversion Hf; subst. cbn [concat]. rewrite app_length, (IH (length L)); [|split; auto]. cbn. lia.
Qed.
Lemma famat_mean : forall n f, mean_of (concat (famat n f)) = sumn n (fun i => sumn n (f i)) / (INR n * INR n).
Proof.
  intros n f. unfold mean_of. rewrite (concat_len n n) by apply famat_wf. rewrite mult_INR. change sum_of with (@vsum R Num_R). rewrite famat_sum. reflexivity.
Qed.
Lemma famat_rowmean : forall n (g : nat -> R), mean_of (map g (seq 0 n)) = sumn n g / INR n.
Proof. intros n g. unfold mean_of. rewrite map_length, seq_length. reflexivity. Qed.
Lemma famat_col : forall n f j, (j < n)%nat -> col j (famat n f) = map (fun i => f i j) (seq 0 n).
Proof.
  intros n f j Hj. unfold col, famat. rewrite map_map. apply map_ext. intros i. rnum.
  rewrite (nth_map_lt _ _ _ 0%nat) by (rewrite seq_length; auto). rewrite seq_nth by auto. reflexivity.
Qed.
Lemma famat_mul : forall n f g, map2 vmul (famat n f) (famat n g) = famat n (fun i j => f i j * g i j).
Proof.
  intros n f g. unfold famat. rewrite map2_map_l, map2_map_r, map2_same. apply map_ext. intros i.
  unfold vmul. rewrite map2_map_l, map2_map_r, map2_same. reflexivity.
Qed.

(** double centring, mean, no trimming *)
Lemma double_center_mean : forall n f, (0 < n)%nat ->
  double_center_flex (famat n f) "mean" 0 false = Ok (famat n (dcentred n f), Z.of_nat n).
Proof.
  intros n f Hn. unfold double_center_flex. cbn [String.eqb Ascii.eqb Bool.eqb]. rewrite dtrim_mean_0. cbn [bind]. rewrite famat_length.
  rewrite (mapM_Ok _ (fun j => mean_of (col j (famat n f)))) by (intros; apply dtrim_mean_0). cbn [bind].
  rewrite (mapM_Ok _ mean_of) by (intros; apply dtrim_mean_0). cbn [bind]. f_equal. f_equal.
  unfold center_cells. rewrite famat_length. cbn [andb]. apply famat_ext. intros i j Hi Hj.
  rewrite famat_mget by auto. rnum.
  rewrite (nth_map_lt _ _ _ []) by (rewrite famat_length; auto). rewrite famat_row by auto. rewrite famat_rowmean.
  rewrite (nth_map_lt _ _ _ 0%nat) by (rewrite seq_length; auto). rewrite seq_nth by auto. cbn [Nat.add]. rewrite famat_col by auto. rewrite famat_rowmean.
  rewrite famat_mean. unfold dcentred. rewrite !sum_below_sumn.
  rewrite (sumn_ext n (fun k => sum_below n (fun l => f k l)) (fun k => sumn n (f k))); [reflexivity|]. intros k _. apply sum_below_sumn.
Qed.

Lemma dcentred_sumn : forall n d i j, dcentred n d i j = d i j - sumn n (fun k => d i k) / INR n - sumn n (fun k => d k j) / INR n
  + sumn n (fun k => sumn n (fun l => d k l)) / (INR n * INR n).
Proof.
  intros. unfold dcentred. rewrite !sum_below_sumn. rewrite (sumn_ext n (fun k => sum_below n (fun l => d k l)) (fun k => sumn n (d k))); [reflexivity|].
  intros k _. apply sum_below_sumn.
Qed.
Lemma dcentred_ext : forall n d e i j, (forall k l, (k < n)%nat -> (l < n)%nat -> d k l = e k l) -> (i < n)%nat -> (j < n)%nat -> dcentred n d i j = dcentred n e i j.
Proof.
  intros n d e i j Hde Hi Hj. rewrite !dcentred_sumn. rewrite Hde by auto.
  rewrite (sumn_ext n (fun k => d i k) (fun k => e i k)) by auto.
  rewrite (sumn_ext n (fun k => d k j) (fun k => e k j)) by auto.
  rewrite (sumn_ext n (fun k => sumn n (fun l => d k l)) (fun k => sumn n (fun l => e k l))); [reflexivity|].
  intros k Hk. apply sumn_ext. auto.
Qed.
Lemma dcentred_row : forall n d i, (0 < n)%nat -> (i < n)%nat -> sumn n (fun j => dcentred n d i j) = 0.
Proof.
  intros n d i Hn Hi. assert (INR n <> 0) by (apply not_0_INR; lia).
  rewrite (sumn_ext n _ (fun j => ((d i j - sumn n (fun k => d i k) / INR n) - sumn n (fun k => d k j) / INR n) + sumn n (fun k => sumn n (fun l => d k l)) / (INR n * INR n))).
  2:{ intros j Hj. rewrite dcentred_sumn. reflexivity. }
  rewrite sumn_plus, !sumn_minus, !sumn_const.
  assert (E : sumn n (fun j => sumn n (fun k => d k j) / INR n) = sumn n (fun k => sumn n (fun l => d k l)) / INR n).
  { unfold Rdiv. rewrite sumn_scal_r. rewrite (sumn_exchange n n (fun j k => d k j)). reflexivity. }
  rewrite E. change (sumn n (fun k => d i k)) with (sumn n (d i)). field. auto.
Qed.
Lemma dcentred_col : forall n d j, (0 < n)%nat -> (j < n)%nat -> sumn n (fun i => dcentred n d i j) = 0.
Proof.
  intros n d j Hn Hj. assert (INR n <> 0) by (apply not_0_INR; lia).
  rewrite (sumn_ext n _ (fun i => ((d i j - sumn n (fun k => d i k) / INR n) - sumn n (fun k => d k j) / INR n) + sumn n (fun k => sumn n (fun l => d k l)) / (INR n * INR n))).
  2:{ intros i Hi. rewrite dcentred_sumn. reflexivity. }
  rewrite sumn_plus, !sumn_minus, !sumn_const.
  assert (E : sumn n (fun i => sumn n (fun k => d i k) / INR n) = sumn n (fun k => sumn n (fun l => d k l)) / INR n).
  { unfold Rdiv. rewrite sumn_scal_r. reflexivity. }
  rewrite E. field. auto.
Qed.

Lemma C56_mean_l : forall n a t, is_matrix n n a -> (0 < n)%nat -> t = 0 ->
  exists out m, double_center_flex a "mean" t false = Ok (out, m) /\ is_matrix n n out /\
    (forall i j, (i < n)%nat -> (j < n)%nat -> cell out i j = dcentred n (cell a) i j) /\
    (forall i, (i < n)%nat -> sum_below n (fun j => cell out i j) = 0) /\
    (forall j, (j < n)%nat -> sum_below n (fun i => cell out i j) = 0).
Proof.
  intros n a t Ha Hn ->. apply is_matrix_wf in Ha.
  exists (famat n (dcentred n (mget a))), (Z.of_nat n). split; [rewrite (famat_of n a Ha) at 1; apply double_center_mean; auto|].
  split; [apply is_matrix_wf, famat_wf|]. split; [|split].
  - intros i j Hi Hj. change (cell (famat n (dcentred n (mget a))) i j) with (mget (famat n (dcentred n (mget a))) i j). rewrite famat_mget by auto. reflexivity.
  - intros i Hi. rewrite sum_below_sumn. rewrite (sumn_ext n _ (fun j => dcentred n (mget a) i j)); [apply dcentred_row; auto|].
    intros j Hj. apply famat_mget; auto.
  - intros j Hj. rewrite sum_below_sumn. rewrite (sumn_ext n _ (fun i => dcentred n (mget a) i j)); [apply dcentred_col; auto|].
    intros i Hi. apply famat_mget; auto.
Qed.

(** U-centring *)
Lemma sumn_skip : forall n k (g : nat -> R), (k < n)%nat -> sumn n (fun j => if (k =? j)%nat then 0 else g j) = sumn n g - g k.
Proof.
  intros n k g Hk. rewrite (sumn_ext n _ (fun j => g j - (if (j =? k)%nat then g j else 0))).
  - rewrite sumn_minus, sumn_delta by auto. reflexivity.
  - intros j Hj. rewrite Nat.eqb_sym. destruct (j =? k)%nat; lra.
Qed.

Definition ucentred (n : nat) (d : nat -> nat -> R) (i j : nat) : R :=
  if (i =? j)%nat then 0 else d i j - sumn n (fun k => d i k) / (INR n - 2) - sumn n (fun k => d k j) / (INR n - 2)
   + sumn n (fun k => sumn n (fun l => d k l)) / ((INR n - 1) * (INR n - 2)).

Lemma double_center_u : forall n f, (3 <= n)%nat ->
  double_center_flex (famat n f) "mean" 0 true = Ok (famat n (ucentred n f), Z.of_nat n).
Proof.
  intros n f Hn. assert (H3 : 3 <= INR n) by (apply (le_INR 3) in Hn; cbn in Hn; lra).
  unfold double_center_flex. cbn [String.eqb Ascii.eqb Bool.eqb]. rewrite dtrim_mean_0. cbn [bind]. rewrite famat_length.
  rewrite (mapM_Ok _ (fun j => mean_of (col j (famat n f)))) by (intros; apply dtrim_mean_0). cbn [bind].
  rewrite (mapM_Ok _ mean_of) by (intros; apply dtrim_mean_0). cbn [bind]. rewrite ntrim_0. f_equal. f_equal.
  unfold center_cells. rewrite famat_length. cbn [andb]. apply famat_ext. intros i j Hi Hj. unfold ucentred.
  destruct (i =? j)%nat; [reflexivity|].
  rewrite famat_mget by auto. rnum.
  rewrite map_map, (nth_map_lt _ _ _ []) by (rewrite famat_length; auto). rewrite famat_row by auto. rewrite famat_rowmean.
  rewrite map_map, (nth_map_lt _ _ _ 0%nat) by (rewrite seq_length; auto). rewrite seq_nth by auto. cbn [Nat.add]. rewrite famat_col by auto. rewrite famat_rowmean.
  rewrite famat_mean. rewrite !nZ_R, !mult_IZR, !minus_IZR, <- !INR_IZR_INZ. 
  change (sumn n (fun k => f i k)) with (sumn n (f i)). change (sumn n (fun k => sumn n (fun l => f k l))) with (sumn n (fun k => sumn n (f k))). field. lra.
Qed.

Lemma ucentred_row : forall n d i, (3 <= n)%nat -> (i < n)%nat -> (forall k l, (k < n)%nat -> (l < n)%nat -> d k l = d l k) -> d i i = 0 ->
  sumn n (fun j => ucentred n d i j) = 0.
Proof.
  intros n d i Hn Hi Hsym Hd. assert (H3 : 3 <= INR n) by (apply (le_INR 3) in Hn; cbn in Hn; lra).
  unfold ucentred.
  rewrite (sumn_skip n i (fun j => d i j - sumn n (fun k => d i k) / (INR n - 2) - sumn n (fun k => d k j) / (INR n - 2)
   + sumn n (fun k => sumn n (fun l => d k l)) / ((INR n - 1) * (INR n - 2)))) by auto.
  rewrite sumn_plus, !sumn_minus, !sumn_const. rewrite Hd.
  rewrite (sumn_ext n (fun k => d k i) (fun k => d i k)) by (intros; apply Hsym; auto).
  assert (E : sumn n (fun j => sumn n (fun k => d k j) / (INR n - 2)) = sumn n (fun k => sumn n (fun l => d k l)) / (INR n - 2)).
  { unfold Rdiv. rewrite sumn_scal_r. rewrite (sumn_exchange n n (fun j k => d k j)). reflexivity. }
  rewrite E. change (sumn n (fun k => d i k)) with (sumn n (d i)). field. lra.
Qed.

Lemma C56_u_l : forall n a, is_matrix n n a -> (3 <= n)%nat ->
  (forall i j, (i < n)%nat -> (j < n)%nat -> cell a i j = cell a j i) -> (forall i, (i < n)%nat -> cell a i i = 0) ->
  exists out m, double_center_flex a "mean" 0 true = Ok (out, m) /\ is_matrix n n out /\
    (forall i, (i < n)%nat -> cell out i i = 0) /\
    (forall i j, (i < n)%nat -> (j < n)%nat -> cell out i j = cell out j i) /\
    (forall i, (i < n)%nat -> sum_below n (fun j => cell out i j) = 0) /\
    (forall i j, (i < n)%nat -> (j < n)%nat -> i <> j -> cell out i j =
       cell a i j - sum_below n (fun k => cell a i k) / (INR n - 2) - sum_below n (fun k => cell a k j) / (INR n - 2)
       + sum_below n (fun k => sum_below n (fun l => cell a k l)) / ((INR n - 1) * (INR n - 2))).
Proof.
  intros n a Ha Hn Hsym Hd. apply is_matrix_wf in Ha.
  exists (famat n (ucentred n (mget a))), (Z.of_nat n). split; [rewrite (famat_of n a Ha) at 1; apply double_center_u; auto|].
  split; [apply is_matrix_wf, famat_wf|].
  assert (G : forall i j, (i < n)%nat -> (j < n)%nat -> cell (famat n (ucentred n (mget a))) i j = ucentred n (mget a) i j) by (intros; apply famat_mget; auto).
  split; [|split; [|split]].
  - intros i Hi. rewrite G by auto. unfold ucentred. rewrite Nat.eqb_refl. reflexivity.
  - intros i j Hi Hj. rewrite !G by auto. unfold ucentred. rewrite (Nat.eqb_sym j i). destruct (i =? j)%nat; [reflexivity|].
    change (mget a) with (cell a). rewrite (Hsym j i) by auto.
    rewrite (sumn_ext n (fun k => cell a k j) (fun k => cell a j k)) by (intros; apply Hsym; auto).
    rewrite (sumn_ext n (fun k => cell a k i) (fun k => cell a i k)) by (intros; apply Hsym; auto). ring.
  - intros i Hi. rewrite sum_below_sumn. rewrite (sumn_ext n _ (fun j => ucentred n (mget a) i j)) by (intros; apply G; auto).
    apply ucentred_row; auto.
  - intros i j Hi Hj Hne. rewrite G by auto. unfold ucentred. apply Nat.eqb_neq in Hne. rewrite Hne. rewrite !sum_below_sumn.
    rewrite (sumn_ext n (fun k => sum_below n (fun l => cell a k l)) (fun k => sumn n (cell a k))) by (intros; apply sum_below_sumn). reflexivity.
Qed.

(** Euclidean distances *)
Lemma vsub_norm_sym : forall u v : list R, length u = length v -> vnorm (vsub u v) = vnorm (vsub v u).
Proof.
  intros u v Hl. unfold vnorm. f_equal. unfold vsqnorm. revert v Hl. induction u as [|a u IH]; intros [|b v] Hl; cbn in Hl; try discriminate; [reflexivity|].
  unfold vsub in *. cbn [map2 map]. rewrite !vsum_cons. rewrite IH by lia. unfold nsqr. rnum. f_equal. ring.
Qed.
Lemma vsub_norm_self : forall u : list R, vnorm (vsub u u) = 0.
Proof.
  intros u. unfold vnorm. rnum. rewrite <- sqrt_0. f_equal. unfold vsqnorm. apply vsum_zero. intros x Hx. apply in_map_iff in Hx as [y [<- Hy]].
  unfold vsub in Hy. rewrite map2_same in Hy. apply in_map_iff in Hy as [z [<- _]]. unfold nsqr. rnum. ring.
Qed.
Lemma dist_matrix_euclid : forall n p X, wf n p X -> dist_matrix euclid X = famat n (rowdist X).
Proof.
  intros n p X HX. unfold dist_matrix. rewrite (wf_length n p X HX). apply famat_ext. intros i j Hi Hj. unfold rowdist, euclid.
  rewrite edist_vnorm. destruct (i <? j)%nat eqn:E1; [reflexivity|]. destruct (j <? i)%nat eqn:E2.
  - apply vsub_norm_sym. rewrite !(wf_nth_row n p X) by auto. reflexivity.
  - apply Nat.ltb_ge in E1. apply Nat.ltb_ge in E2. replace j with i by lia. symmetry. apply vsub_norm_self.
Qed.
Lemma rowdist_sym : forall n p X i j, wf n p X -> (i < n)%nat -> (j < n)%nat -> rowdist X i j = rowdist X j i.
Proof. intros n p X i j HX Hi Hj. unfold rowdist. rewrite !edist_vnorm. apply vsub_norm_sym. rewrite !(wf_nth_row n p X) by auto. reflexivity. Qed.
Lemma rowdist_self : forall X i, rowdist X i i = 0.
Proof. intros. unfold rowdist. rewrite edist_vnorm. apply vsub_norm_self. Qed.
Lemma rowdist_nonneg : forall X i j, 0 <= rowdist X i j.
Proof. intros. unfold rowdist, edist. apply sqrt_pos. Qed.

Lemma dmc_euclid : forall n p X, wf n p X -> (0 < n)%nat ->
  distance_matrix_centered euclid X "mean" 0 false = Ok (famat n (dcentred n (rowdist X)), Z.of_nat n).
Proof. intros n p X HX Hn. unfold distance_matrix_centered. rewrite (dist_matrix_euclid n p X HX). apply double_center_mean; auto. Qed.

Lemma dcov_sq_sumn : forall n X Y, dcov_sq n X Y = sumn n (fun i => sumn n (fun j => dcentred n (rowdist X) i j * dcentred n (rowdist Y) i j)) / (INR n * INR n).
Proof.
  intros. unfold dcov_sq. rewrite sum_below_sumn. f_equal. apply sumn_ext. intros. apply sum_below_sumn.
Qed.

Lemma Rpowr_half : forall x, 0 <= x -> Rpowr x (1 / 2) = sqrt x.
Proof.
  intros x Hx. destruct (Req_EM_T x 0) as [->|Hn].
  - rewrite Rpowr_zero by lra. rewrite sqrt_0. reflexivity.
  - rewrite Rpowr_pos by lra. replace (1 / 2) with (/ 2) by field. apply Rpower_sqrt. lra.
Qed.

(** powers taken by the in-place squaring *)
Lemma msquare_iter : forall k n f, Nat.iter k msquare (famat n f) = famat n (fun i j => f i j ^ (2 ^ k)).
Proof.
  induction k as [|k IH]; intros n f.
  - change (famat n f = famat n (fun i j => f i j ^ 1)). apply famat_ext. intros. cbn [Nat.pow]. ring.
  - change (Nat.iter (S k) msquare (famat n f)) with (msquare (Nat.iter k msquare (famat n f))). rewrite IH. unfold msquare, famat. rewrite map_map. apply map_ext. intros i. rewrite map_map. apply map_ext. intros j.
    unfold nsqr. rnum. rewrite <- pow_add. f_equal. cbn [Nat.pow]. lia.
Qed.

Definition dmom_value (n order : nat) (corr : R) (f g : nat -> nat -> R) : R :=
  let r := Rpowr (Rabs (sumn n (fun i => sumn n (fun j => f i j * g i j)) / (INR n * INR n) * corr)) (1 / INR order) in
  if Nat.even order then r else - r.

Lemma nlit_order : forall o, nlit (A:=R) 1 (Pos.of_nat (S o)) = 1 / INR (S o).
Proof. intros o. rnum. f_equal. rewrite INR_IZR_INZ. f_equal. rewrite Nat2Z.inj_succ. destruct o; [reflexivity|]. lia. Qed.

Lemma distance_moment_mean : forall alias n f g nn order opt, (0 < order)%nat -> (alias = true -> f = g) ->
  let s1 := if (2 <? order)%nat then (order - opt)%nat else 1%nat in
  let s2 := if (2 <? order)%nat then opt else 1%nat in
  let f' := if alias then fun i j => f i j ^ (2 ^ ((s1 - 1) + (s2 - 1))) else fun i j => f i j ^ (2 ^ (s1 - 1)) in
  let g' := if alias then fun i j => f i j ^ (2 ^ ((s1 - 1) + (s2 - 1))) else fun i j => g i j ^ (2 ^ (s2 - 1)) in
  distance_moment alias (famat n f) (famat n g) nn "mean" 0 false order opt = Ok (famat n f', famat n g', dmom_value n order 1 f' g').
Proof.
  intros alias n f g nn order opt Ho Ha s1 s2 f' g'. unfold distance_moment. fold s1 s2. rewrite !famat_length, Nat.eqb_refl. cbn [negb].
  cbn [String.eqb Ascii.eqb Bool.eqb]. rewrite !msquare_iter.
  assert (E : (if alias then famat n (fun i j => f i j ^ (2 ^ (s1 - 1))) else famat n g) = famat n (if alias then fun i j => f i j ^ (2 ^ (s1 - 1)) else g)) by (destruct alias; reflexivity).
  rewrite E, msquare_iter.
  assert (E2 : famat n (fun i j => (if alias then fun i j => f i j ^ (2 ^ (s1 - 1)) else g) i j ^ (2 ^ (s2 - 1))) = famat n g').
  { apply famat_ext. intros i j _ _. unfold g'. destruct alias; [|reflexivity]. rewrite <- pow_mult. f_equal. rewrite Nat.pow_add_r. reflexivity. }
  rewrite E2.
  assert (E3 : (if alias then famat n g' else famat n (fun i j => f i j ^ (2 ^ (s1 - 1)))) = famat n f') by (unfold f', g'; destruct alias; reflexivity).
  rewrite E3, famat_mul, dtrim_mean_0. cbn [bind]. rewrite famat_mean. destruct order as [|o]; [lia|]. cbn [Nat.eqb].
  rewrite nlit_order. f_equal.
Qed.

Lemma distance_moment_2 : forall alias n f g nn opt, (alias = true -> f = g) ->
  distance_moment alias (famat n f) (famat n g) nn "mean" 0 false 2 opt =
  Ok (famat n f, famat n g, sqrt (Rabs (sumn n (fun i => sumn n (fun j => f i j * g i j)) / (INR n * INR n)))).
Proof.
  intros alias n f g nn opt Ha. rewrite distance_moment_mean by (auto; lia). cbv zeta.
  change (if (2 <? 2)%nat then (2 - opt)%nat else 1%nat) with 1%nat. change (if (2 <? 2)%nat then opt else 1%nat) with 1%nat. cbn [Nat.sub Nat.add Nat.pow].
  assert (P : forall h, famat n (fun i j : nat => h i j ^ 1) = famat n h) by (intros; apply famat_ext; intros; ring).
  assert (Q : forall h k, dmom_value n 2 1 (fun i j => h i j ^ 1) (fun i j => k i j ^ 1) = sqrt (Rabs (sumn n (fun i => sumn n (fun j => h i j * k i j)) / (INR n * INR n)))).
  { intros h k. unfold dmom_value. cbn [Nat.even]. change (INR 2) with 2. rewrite Rpowr_half by apply Rabs_pos. f_equal. f_equal. rewrite Rmult_1_r. f_equal.
    apply sumn_ext. intros. apply sumn_ext. intros. ring. }
  destruct alias; rewrite ?P, Q; [rewrite (Ha eq_refl); reflexivity|reflexivity].
Qed.
