(** Lemmas for C30, C31, C85-C87. *)

From Coq Require Import Reals List Arith ZArith Bool Lia Lra Permutation.
Import ListNotations.
From Verif Require Import Num Err Vec VecR OrdR L_Mat S_Stats S_Utils L_Stats M_Utils M_Plot L_Lin L_Missing L_Msupport.
Open Scope R_scope.

Lemma nansum_vmul_XR : forall u v, Forall ok_entry u -> Forall ok_entry v ->
  nansum (vmul u v) = Fin (sum_of (observed_products u v)).
Proof.
  intros u v Hu Hv. change sum_of with (@vsum R Num_R). unfold nansum. rewrite <- vsum_XR. f_equal.
  revert v Hv. induction Hu as [|x u Hx Hu IH]; intros v Hv; [destruct v; reflexivity|].
  destruct Hv as [|y v Hy Hv]; [destruct x; reflexivity|]. specialize (IH v Hv).
  unfold vmul in *. cbn [map2 nonnan filter]. unfold nonnan in IH.
  destruct x as [a| | |]; cbn in Hx; try contradiction; destruct y as [b| | |]; cbn in Hy; try contradiction.
  - change (nmul (Fin a) (Fin b)) with (Fin (a * b)). rewrite isnan_Fin. cbn [negb observed_products map]. f_equal. exact IH.
  - change (nmul (Fin a) NaN) with NaN. rewrite isnan_NaN. cbn [negb observed_products]. exact IH.
  - change (nmul NaN (Fin b)) with NaN. rewrite isnan_NaN. cbn [negb observed_products]. exact IH.
  - change (nmul NaN NaN) with NaN. rewrite isnan_NaN. cbn [negb observed_products]. exact IH.
Qed.
Lemma ncols_x : forall n p (X : list (list XR)), is_xmatrix n p X -> (1 <= n)%nat -> ncols X = p.
Proof.
  intros n p X [Hl Hf] Hn. destruct X as [|r X]; [cbn in Hl; lia|]. unfold ncols; cbn [hd]. inversion Hf; auto.
Qed.
Lemma C30_nandot_l : forall n p X y, is_xmatrix n p X -> entries_ok X -> (1 <= n)%nat -> length y = p -> Forall ok_entry y ->
  exists z, nandot X y = Ok z /\ length z = n /\
    forall i, (i < n)%nat -> nth i z NaN = Fin (sum_of (observed_products (nth i X []) y)).
Proof.
  intros n p X y HX Hok Hn Hy Hoky. unfold nandot. rewrite (ncols_x n p X HX Hn), <- Hy, Nat.eqb_refl.
  eexists. split; [reflexivity|]. destruct HX as [Hl Hf]. split; [rewrite map_length; auto|]. intros i Hi.
  rewrite (nth_map_lt _ _ _ []) by lia. apply nansum_vmul_XR; auto. unfold entries_ok in Hok. rewrite Forall_forall in Hok.
  apply Hok, nth_In. lia.
Qed.
Lemma xcol_ok : forall n q (Y : list (list XR)) j, is_xmatrix n q Y -> entries_ok Y -> (j < q)%nat -> Forall ok_entry (col j Y).
Proof. intros n q Y j HY Hok Hj. apply col_entries_ok; auto. Qed.
Lemma C30_nanmatdot_l : forall n m q X Y, is_xmatrix n m X -> is_xmatrix m q Y -> entries_ok X -> entries_ok Y ->
  (1 <= n)%nat -> (1 <= m)%nat -> (1 <= q)%nat ->
  exists Z, nanmatdot X Y = Ok Z /\
    (q = 1%nat -> is_xmatrix n 1 Z /\
       forall i, (i < n)%nat -> nth 0 (nth i Z []) NaN = Fin (sum_of (observed_products (nth i X []) (xcolumn 0 Y)))) /\
    ((2 <= q)%nat -> is_xmatrix q n Z /\
       forall i j, (i < n)%nat -> (j < q)%nat ->
         nth i (nth j Z []) NaN = Fin (sum_of (observed_products (nth i X []) (xcolumn j Y)))).
Proof.
  intros n m q X Y HX HY HoX HoY Hn Hm Hq. unfold nanmatdot. rewrite (ncols_x n m X HX Hn), (ncols_x m q Y HY Hm).
  destruct HY as [HlY HfY] eqn:EHY. clear EHY. rewrite HlY, Nat.eqb_refl.
  assert (HoR : forall i, (i < n)%nat -> Forall ok_entry (nth i X [])).
  { intros i Hi. unfold entries_ok in HoX. rewrite Forall_forall in HoX. apply HoX, nth_In. destruct HX; lia. }
  destruct (Nat.eqb_spec q 1) as [->|Hne].
  - eexists; split; [reflexivity|]. split; [|lia]. intros _. destruct HX as [HlX HfX]. split.
    + split; [rewrite map_length; auto|]. apply Forall_map, Forall_forall. reflexivity.
    + intros i Hi. rewrite (nth_map_lt _ _ _ []) by lia. cbn [nth]. rewrite (xcolumn_col m 1) by (auto; split; auto).
      apply nansum_vmul_XR; auto. apply col_entries_ok; auto.
  - eexists; split; [reflexivity|]. split; [lia|]. intros _. destruct HX as [HlX HfX]. 
    assert (Hlc : length (cols Y) = q) by (unfold cols; rewrite map_length, seq_length; apply (ncols_x m q); auto; split; auto).
    split.
    + split; [rewrite map_length; auto|]. apply Forall_map, Forall_forall. intros c _. rewrite map_length; auto.
    + intros i j Hi Hj. rewrite (nth_map_lt _ _ _ []) by lia. rewrite (nth_map_lt _ _ _ []) by lia.
      rewrite (xcolumn_col m q) by (auto; split; auto).
      replace (nth j (cols Y) []) with (col j Y).
      * apply nansum_vmul_XR; auto. apply col_entries_ok; auto.
      * unfold cols. rewrite (ncols_x m q Y) by (auto; split; auto). rewrite (nth_map_lt _ _ _ 0%nat) by (rewrite seq_length; lia).
        rewrite seq_nth by lia. reflexivity.
Qed.
Lemma nonnan_R : forall l : list R, nonnan l = l.
Proof.
  induction l as [|x l IH]; [reflexivity|]. unfold nonnan in *. cbn [filter].
  replace (negb (nisnan x)) with true; [rewrite IH; reflexivity|]. symmetry. unfold nisnan. rewrite negb_involutive. rnum. apply Reqb_true. reflexivity.
Qed.
Lemma C30_complete_l : forall n m q X Y, is_matrix n m X -> is_matrix m q Y -> (1 <= n)%nat -> (1 <= m)%nat -> (2 <= q)%nat ->
  exists Z, nanmatdot X Y = Ok Z /\ is_matrix q n Z /\
    forall i j, (i < n)%nat -> (j < q)%nat -> cell Z j i = inner (nth i X []) (column j Y).
Proof.
  intros n m q X Y HX HY Hn Hm Hq. unfold nanmatdot.
  rewrite (wf_ncols n m X) by (auto; lia). rewrite (wf_ncols m q Y) by (auto; lia). destruct HY as [HlY HfY] eqn:E; clear E.
  rewrite HlY, Nat.eqb_refl. destruct (Nat.eqb_spec q 1) as [->|Hne]; [lia|]. eexists; split; [reflexivity|].
  assert (Hlc : length (cols Y) = q) by (unfold cols; rewrite map_length, seq_length; apply (wf_ncols m q); auto; try lia).
  destruct HX as [HlX HfX]. split.
  - split; [rewrite map_length; auto|]. apply Forall_map, Forall_forall. intros c _. rewrite map_length; auto.
  - intros i j Hi Hj. unfold cell. rewrite (nth_map_lt _ _ _ []) by lia. rewrite (nth_map_lt _ _ _ []) by lia.
    unfold nansum. rewrite nonnan_R. rewrite inner_dot. unfold dot, vmul. f_equal. f_equal.
    unfold cols. rewrite (wf_ncols m q) by (auto; lia). rewrite (nth_map_lt _ _ _ 0%nat) by (rewrite seq_length; lia).
    rewrite seq_nth by lia. reflexivity.
Qed.

(* C31 *)
Lemma check_input_twice_l : forall x : arr R, check_input (A2 (check_input x)) = check_input x.
Proof.
  intros x. unfold check_input at 2 3. set (X := match x with A1 v => [v] | A2 X => X end).
  destruct ((length X =? 1)%nat && (2 <=? ncols X)%nat) eqn:E.
  - apply andb_true_iff in E as [E1 E2]. apply Nat.eqb_eq in E1. apply Nat.leb_le in E2.
    unfold check_input. rewrite map_length. destruct X as [|r [|? ?]]; cbn in E1; try lia. cbn [hd]. unfold ncols in E2; cbn [hd] in E2.
    destruct (Nat.eqb_spec (length r) 1); [lia|]. reflexivity.
  - unfold check_input. rewrite E. reflexivity.
Qed.
Lemma C31_check_l : forall x : arr R,
  (forall n p X, x = A2 X -> is_matrix n p X -> (2 <= n)%nat -> check_input x = X) /\
  (forall v, (x = A1 v \/ x = A2 [v]) -> (1 <= length v)%nat ->
     is_matrix (length v) 1 (check_input x) /\ forall i, (i < length v)%nat -> cell (check_input x) i 0 = nth i v 0) /\
  check_input (A2 (check_input x)) = check_input x.
Proof.
  intros x. split; [|split].
  - intros n p X -> [Hl _] Hn. unfold check_input. destruct (Nat.eqb_spec (length X) 1); [lia|reflexivity].
  - intros v Hx Hv. replace (check_input x) with (if (2 <=? length v)%nat then map (fun a => [a]) v else [v]) by (destruct Hx; subst; reflexivity).
    destruct (Nat.leb_spec 2 (length v)).
    + split.
      * split; [apply map_length|]. apply Forall_map, Forall_forall. reflexivity.
      * intros i Hi. unfold cell. rewrite (nth_map_lt _ _ _ 0) by auto. reflexivity.
    + destruct v as [|a [|? ?]]; cbn in *; try lia. split; [split; [reflexivity|constructor; auto]|].
      intros i Hi. assert (i = 0)%nat as -> by lia. reflexivity.
  - apply check_input_twice_l.
Qed.
Lemma C31_predict_l : forall x : arr R,
  (forall v, x = A1 v -> predict_check_input x = (1%nat, length v, [v])) /\
  (forall n p X, x = A2 X -> is_matrix n p X -> (1 <= n)%nat -> predict_check_input x = (n, p, X)).
Proof.
  intros x. split.
  - intros v ->. reflexivity.
  - intros n p X -> HX Hn. unfold predict_check_input. rewrite (wf_ncols n p) by (auto; lia). destruct HX as [-> _]. reflexivity.
Qed.

(* C85 *)
Lemma C85_l : forall (w : list R) i, (i < length w)%nat -> 0 <= nth i w 0 <= 1 ->
  (In i (regular_cases w) /\ ~ In i (moderate_outliers w) /\ ~ In i (harsh_outliers w) /\ nth i w 0 = 1) \/
  (~ In i (regular_cases w) /\ In i (moderate_outliers w) /\ ~ In i (harsh_outliers w) /\ 0 < nth i w 0 < 1) \/
  (~ In i (regular_cases w) /\ ~ In i (moderate_outliers w) /\ In i (harsh_outliers w) /\ nth i w 0 = 0).
Proof.
  intros w i Hi Hw.
  assert (HR : In i (regular_cases w) <-> nth i w 0 = 1).
  { unfold regular_cases. rewrite (where_in _ _ _ 0). rnum. rewrite Reqb_true. tauto. }
  assert (HM : In i (moderate_outliers w) <-> 0 < nth i w 0 < 1).
  { unfold moderate_outliers. rewrite (where_in _ _ _ 0). rewrite andb_true_iff. rnum. rewrite !Rltb_true. tauto. }
  assert (HH : In i (harsh_outliers w) <-> nth i w 0 = 0).
  { unfold harsh_outliers. rewrite (where_in _ _ _ 0). rnum. rewrite Reqb_true. tauto. }
  rewrite HR, HM, HH. set (a := nth i w 0) in *.
  destruct (Req_dec a 1); [left; repeat split; lra|]. destruct (Req_dec a 0); [right; right; repeat split; lra|].
  right; left. repeat split; lra.
Qed.
Lemma C85_range_l : forall (w : list R) i, In i (regular_cases w) \/ In i (moderate_outliers w) \/ In i (harsh_outliers w) -> (i < length w)%nat.
Proof. intros w i H. unfold regular_cases, moderate_outliers, harsh_outliers in H. rewrite !(where_in _ _ _ 0) in H. tauto. Qed.

(* C86 *)
Lemma C86_l : forall {N P : Type} (names : list N) (points : list P) dn dp, length names = length points ->
  length (annotations names points) = (length names - 1)%nat /\
  forall i, (i < length names - 1)%nat -> nth i (annotations names points) (dn, dp) = (nth i names dn, nth i points dp).
Proof.
  intros N P names points dn dp Hl. unfold annotations.
  assert (El : length (firstn (length names - 1) names) = (length names - 1)%nat) by (rewrite firstn_length; lia).
  split; [rewrite combine_length, El; lia|]. intros i Hi.
  assert (combine (firstn (length names - 1) names) points = firstn (length names - 1) (combine names points)) as ->.
  { rewrite combine_firstn_l. rewrite El.
    rewrite combine_firstn. reflexivity. }
  assert (Hnth : forall (l : list (N * P)) k d, (i < k)%nat -> nth i (firstn k l) d = nth i l d).
  { clear. intros l; revert i. induction l as [|a l IH]; intros i [|k] d Hk; try lia; cbn; auto.
    destruct i; auto. apply IH. lia. }
  rewrite Hnth by auto. apply combine_nth; auto.
Qed.
Lemma C86_caseweights_l : forall {N : Type} (names : list N) x, In x (caseweight_labels names) ->
  exists i, (i < length names)%nat /\ nth_error names i = Some (fst x) /\ snd x = S (bar_position i).
Proof.
  intros N names x Hin. unfold caseweight_labels in Hin. apply in_map_iff in Hin as ((a, k) & <- & Hin). cbn [fst snd].
  apply In_nth_error in Hin as (j & Ej).
  assert (Hgen : forall (l : list N) m j, nth_error (combine l (seq m (length l))) j = Some (a, k) -> nth_error l j = Some a /\ k = (m + j)%nat).
  { clear. induction l as [|y l IH]; intros m [|j] E; cbn in *; try discriminate.
    - injection E as <- <-. split; auto; lia.
    - apply IH in E as [E1 E2]. split; auto; lia. }
  assert (El : length (firstn (length names - 1) names) = (length names - 1)%nat) by (rewrite firstn_length; lia).
  rewrite <- El in Ej at 2. apply Hgen in Ej as [E1 E2]. cbn in E2. subst k. exists j.
  assert (Hj : (j < length names - 1)%nat) by (rewrite <- El; apply nth_error_Some; congruence).
  split; [lia|]. split.
  - rewrite <- E1. clear - Hj. revert j Hj. generalize (length names - 1)%nat as m. induction names as [|a l IH]; intros m j Hj.
    + rewrite firstn_nil. reflexivity.
    + destruct m; [lia|]. destruct j; cbn; auto. apply IH. lia.
  - unfold bar_position. lia.
Qed.
