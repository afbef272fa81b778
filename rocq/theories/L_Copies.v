(** Every case counted k times: sums, means, medians, cross-products. *)

From Coq Require Import Reals List Arith ZArith Bool Lia Lra Permutation Sorted.
Import ListNotations.
From Verif Require Import Num Err Vec VecR OrdR L_Mat L_Lin L_Matmul S_Stats S_Order S_Copies L_Order M_Utils M_Preproc L_Scaling L_Scaling2.
Open Scope R_scope.

Lemma copies_in : forall n k o i, case_copies n k o -> In i o -> (i < n)%nat.
Proof.
  intros n k o i Ho Hi. apply (Permutation_in _ (Permutation_sym Ho)) in Hi. apply in_concat in Hi. destruct Hi as (l & Hl & Hi). apply repeat_spec in Hl. subst l. apply in_seq in Hi. lia.
Qed.
Lemma concat_repeat_length : forall {T} (l : list T) k, length (concat (repeat l k)) = (k * length l)%nat.
Proof. intros T l k. induction k as [|k IH]; [reflexivity|]. cbn [repeat concat]. rewrite app_length, IH. lia. Qed.
Lemma copies_length : forall n k o, case_copies n k o -> length o = (k * n)%nat.
Proof. intros n k o Ho. rewrite <- (Permutation_length Ho), concat_repeat_length, seq_length. reflexivity. Qed.
Lemma concat_repeat_map : forall {T U} (f : T -> U) l k, map f (concat (repeat l k)) = concat (repeat (map f l) k).
Proof. intros T U f l k. induction k as [|k IH]; [reflexivity|]. cbn [repeat concat]. rewrite map_app, IH. reflexivity. Qed.

Section Copies.
  Variables (n k : nat) (o : list nat).
  Hypothesis Ho : case_copies n k o.
  Lemma cp_nth : forall {T} (l : list T) d, length l = n -> reorder o l = map (fun i => nth i l d) o.
  Proof. intros T l d Hl. apply reorder_map_nth. intros i Hi. rewrite Hl. eapply copies_in; eauto. Qed.
  Lemma cp_perm : forall {T} (l : list T), length l = n -> Permutation (concat (repeat l k)) (reorder o l).
  Proof.
    intros T l Hl. destruct l as [|x l].
    - assert (E : o = []). { cbn in Hl. pose proof (copies_length _ _ _ Ho) as L. rewrite <- Hl in L. destruct o; [reflexivity|cbn in L; lia]. }
      rewrite E. cbn [reorder flat_map]. clear. induction k as [|m IH]; [constructor|exact IH].
    - rewrite (cp_nth _ x) by auto. transitivity (map (fun i => nth i (x :: l) x) (concat (repeat (seq 0 n) k))); [|apply Permutation_map, Ho].
      rewrite concat_repeat_map. rewrite <- Hl, (map_nth_seq (x :: l) x). reflexivity.
  Qed.
  Lemma cp_length : forall {T} (l : list T), length l = n -> length (reorder o l) = (k * n)%nat.
  Proof. intros T l Hl. rewrite <- (Permutation_length (cp_perm l Hl)), concat_repeat_length, Hl. reflexivity. Qed.
  Lemma cp_map2 : forall {T U V} (f : T -> U -> V) l m, length l = n -> length m = n -> reorder o (map2 f l m) = map2 f (reorder o l) (reorder o m).
  Proof.
    intros T U V f l m Hl Hm. assert (Hi : forall i, In i o -> (i < n)%nat) by (intros; eapply copies_in; eauto).
    destruct l as [|x l], m as [|z m]; cbn in Hl, Hm; try lia.
    - destruct o as [|i o']; [reflexivity|]. specialize (Hi i (or_introl eq_refl)). lia.
    - rewrite (cp_nth (map2 f (x :: l) (z :: m)) (f x z)) by (rewrite ?map2_length_eq; cbn; auto; lia).
      rewrite (cp_nth (x :: l) x), (cp_nth (z :: m) z) by (cbn; auto).
      assert (Hn : forall i, (i < n)%nat -> nth i (map2 f (x :: l) (z :: m)) (f x z) = f (nth i (x :: l) x) (nth i (z :: m) z)) by (intros i Hin; apply (nth_map2 f (x :: l) (z :: m)); cbn [length]; lia).
      revert Hn. generalize (map2 f (x :: l) (z :: m)), (x :: l), (z :: m). intros L l' m' Hn. clear Ho.
      induction o as [|i o' IH]; auto. cbn [map map2]. rewrite IH by (intros; apply Hi; right; auto). f_equal. apply Hn, Hi. left; auto.
  Qed.
  Lemma cp_wf : forall p (X : list (list R)), wf n p X -> wf (k * n) p (reorder o X).
  Proof.
    intros p X [L F]. split; [apply cp_length; auto|]. rewrite Forall_forall in *. intros r Hr. apply F.
    apply (Permutation_in _ (Permutation_sym (cp_perm X L))) in Hr. apply in_concat in Hr. destruct Hr as (l & Hl & Hi). apply repeat_spec in Hl. subst l. exact Hi.
  Qed.
  Lemma cp_vsum : forall l : list R, length l = n -> vsum (reorder o l) = INR k * vsum l.
  Proof.
    intros l Hl. rewrite <- (vsum_perm _ _ (cp_perm l Hl)). clear. induction k as [|m IH]; [cbn [repeat concat]; rewrite Rmult_0_l; reflexivity|].
    cbn [repeat concat]. rewrite vsum_app, IH, S_INR. ring.
  Qed.
  Lemma cp_dot : forall u v : list R, length u = n -> length v = n -> dot (reorder o u) (reorder o v) = INR k * dot u v.
  Proof. intros u v Hu Hv. unfold dot. rewrite <- cp_map2 by auto. apply cp_vsum. rewrite map2_length_eq; congruence. Qed.
  Hypothesis Hk : (1 <= k)%nat.
  Lemma kpos : 0 < INR k. Proof. apply lt_0_INR. lia. Qed.
  Lemma cp_vmean : forall l : list R, length l = n -> vmean (reorder o l) = vmean l.
  Proof.
    intros l Hl. pose proof kpos. unfold vmean. rewrite cp_vsum, cp_length by auto. rewrite !nnat_R, mult_INR, Hl. rnum.
    destruct (Nat.eq_dec n 0) as [E|E].
    - rewrite E in *. destruct l; [|discriminate]. cbn. unfold Rdiv. rewrite !Rmult_0_r. change (vsum []) with 0. ring.
    - assert (0 < INR n) by (apply lt_0_INR; lia). field. lra.
  Qed.
  Lemma cp_vvar : forall l : list R, length l = n -> vvar (reorder o l) = vvar l.
  Proof. intros l Hl. unfold vvar. rewrite cp_vmean by auto. rewrite <- reorder_map. apply cp_vmean. rewrite map_length. exact Hl. Qed.
  (** ** medians *)
  Lemma concat_each_perm : forall {T} (l : list T) m, Permutation (concat (repeat l m)) (flat_map (fun x => repeat x m) l).
  Proof.
    intros T l m. induction l as [|x l IH].
    - cbn [flat_map]. induction m as [|m IH]; [constructor|exact IH].
    - cbn [flat_map]. rewrite <- IH. clear. induction m as [|m IH]; [constructor|]. cbn [repeat concat app]. apply perm_skip.
      rewrite IH. rewrite !app_assoc. apply Permutation_app_tail. apply Permutation_app_comm.
  Qed.
  Lemma each_sorted : forall (s : list R) m, StronglySorted Rle s -> StronglySorted Rle (flat_map (fun x => repeat x m) s).
  Proof.
    intros s m Hs. induction Hs as [|x s Hs IH Hx]; [constructor|]. cbn [flat_map]. apply sorted_app; [|exact IH|].
    - clear. induction m as [|m IH]; [constructor|]. cbn [repeat]. constructor; [exact IH|]. apply Forall_forall. intros y Hy. apply repeat_spec in Hy. subst y. lra.
    - intros a b Ha Hb. apply repeat_spec in Ha. subst a. apply in_flat_map in Hb. destruct Hb as (z & Hz & Hb). apply repeat_spec in Hb. subst b. rewrite Forall_forall in Hx. apply Hx, Hz.
  Qed.
  Lemma each_length : forall {T} (s : list T) m, length (flat_map (fun x => repeat x m) s) = (m * length s)%nat.
  Proof. intros T s m. induction s as [|x s IH]; [cbn; lia|]. cbn [flat_map length]. rewrite app_length, repeat_length, IH. lia. Qed.
  Lemma each_nth : forall (s : list R) m i r, (i < length s)%nat -> (r < m)%nat -> nth (m * i + r) (flat_map (fun x => repeat x m) s) 0 = nth i s 0.
  Proof.
    intros s m. induction s as [|x s IH]; intros i r Hi Hr; [cbn in Hi; lia|]. cbn [flat_map]. destruct i as [|i].
    - rewrite Nat.mul_0_r. cbn [plus]. rewrite app_nth1 by (rewrite repeat_length; auto). cbn [nth].
      rewrite (nth_indep _ 0 x) by (rewrite repeat_length; auto). apply nth_repeat.
    - cbn in Hi. rewrite app_nth2 by (rewrite repeat_length; lia). rewrite repeat_length. replace (m * S i + r - m)%nat with (m * i + r)%nat by lia. cbn [nth]. apply IH; lia.
  Qed.
  Lemma cp_sort : forall l : list R, length l = n -> sort (reorder o l) = flat_map (fun x => repeat x k) (sort l).
  Proof.
    intros l Hl. symmetry. rewrite <- (sort_of_sorted (flat_map (fun x => repeat x k) (sort l))) by (apply each_sorted, sort_sorted). apply sort_permutation.
    rewrite <- (cp_perm l Hl). rewrite <- concat_each_perm. clear. induction k as [|m IH]; [constructor|]. cbn [repeat concat]. apply Permutation_app; [apply Permutation_sym, sort_perm|exact IH].
  Qed.
  Lemma cp_vmedian : forall l : list R, length l = n -> vmedian (reorder o l) = vmedian l.
  Proof.
    intros l Hl. destruct (Nat.eq_dec n 0) as [E|E].
    { destruct l; [|cbn in Hl; lia]. pose proof (copies_length _ _ _ Ho) as L. rewrite E, Nat.mul_0_r in L. destruct o; [reflexivity|discriminate]. }
    assert (Hne : l <> []) by (destruct l; [cbn in Hl; lia|discriminate]).
    assert (Hne' : reorder o l <> []). { intros C. pose proof (cp_length l Hl) as L. rewrite C in L. cbn in L. nia. }
    rewrite !vmedian_R by auto. rewrite cp_length, cp_sort, Hl by auto. assert (Ls : length (sort l) = n) by (rewrite sort_length; auto).
    assert (HN : forall i r, (i < n)%nat -> (r < k)%nat -> nth (k * i + r) (flat_map (fun x => repeat x k) (sort l)) 0 = nth i (sort l) 0) by (intros; apply each_nth; lia).
    destruct (Nat.even n) eqn:En.
    - rewrite Nat.even_mul, En, orb_true_r. pose proof (even_half n En) as Eh. set (m := (n / 2)%nat) in *.
      replace (k * n / 2)%nat with (k * m)%nat by (rewrite Eh at 1; replace (k * (2 * m))%nat with (k * m * 2)%nat by lia; rewrite Nat.div_mul; lia).
      replace (nth (k * m) (flat_map (fun x => repeat x k) (sort l)) 0) with (nth m (sort l) 0) by (rewrite <- (HN m 0%nat) by lia; f_equal; lia).
      replace (nth (k * m - 1) (flat_map (fun x => repeat x k) (sort l)) 0) with (nth (m - 1) (sort l) 0); [reflexivity|].
      rewrite <- (HN (m - 1)%nat (k - 1)%nat) by lia. f_equal. nia.
    - pose proof (odd_half n En) as Eh. set (m := (n / 2)%nat) in *. rewrite Nat.even_mul, En, orb_false_r. destruct (Nat.even k) eqn:Ek.
      + pose proof (even_half k Ek) as Eq. set (h := (k / 2)%nat) in *.
        replace (k * n / 2)%nat with (k * m + h)%nat by (rewrite Eh at 1; replace (k * (2 * m + 1))%nat with ((k * m + h) * 2)%nat by nia; rewrite Nat.div_mul; lia).
        rewrite HN by lia. replace (k * m + h - 1)%nat with (k * m + (h - 1))%nat by nia. rewrite HN by lia. field.
      + pose proof (odd_half k Ek) as Eq. set (h := (k / 2)%nat) in *.
        replace (k * n / 2)%nat with (k * m + h)%nat.
        * apply HN; lia.
        * apply (Nat.div_unique (k * n) 2 (k * m + h) 1); [lia|]. rewrite Eh at 1. nia.
  Qed.
  (** ** columns *)
  Hypothesis Hn : (0 < n)%nat.
  Lemma cp_rows : (0 < k * n)%nat. Proof. nia. Qed.
  Lemma cp_cols : forall p (X : list (list R)), wf n p X -> cols (reorder o X) = map (reorder o) (cols X).
  Proof.
    intros p X HX. unfold cols. rewrite (wf_ncols n p X) by auto. rewrite (wf_ncols (k * n) p (reorder o X)) by (auto using cp_wf, cp_rows). rewrite map_map. apply map_ext. intros. apply reorder_col.
  Qed.
  Lemma cp_cols_map : forall {B} (f : list R -> B) p (X : list (list R)), wf n p X -> (forall l, length l = n -> f (reorder o l) = f l) -> map f (cols (reorder o X)) = map f (cols X).
  Proof.
    intros B f p X HX Hf. rewrite (cp_cols p) by auto. rewrite map_map. apply map_ext_in. intros c Hc. apply Hf. eapply wf_row; [apply wf_cols; eauto|exact Hc].
  Qed.
  Lemma cp_mean0 : forall p (X : list (list R)), wf n p X -> mean (reorder o X) 0 = mean X 0.
  Proof.
    intros p X HX. unfold mean. rewrite !manynan_R. destruct (neqb 0 n0) eqn:E; [|exfalso; cbn in E; unfold Reqb in E; destruct (Req_EM_T 0 0); congruence].
    f_equal. apply (cp_cols_map _ p); auto. apply cp_vmean.
  Qed.
  Lemma cp_median : forall p (X : list (list R)), wf n p X -> median (reorder o X) = median X.
  Proof. intros p X HX. unfold median. rewrite !manynan_R. apply (cp_cols_map _ p); auto. apply cp_vmedian. Qed.
  Lemma cp_std0 : forall p (X : list (list R)), wf n p X -> std (reorder o X) 0 = std X 0.
  Proof.
    intros p X HX. unfold std. rewrite !manynan_R. destruct (neqb 0 n0) eqn:E; [|exfalso; cbn in E; unfold Reqb in E; destruct (Req_EM_T 0 0); congruence].
    f_equal. f_equal. apply (cp_cols_map _ p); auto. apply cp_vvar.
  Qed.
  Lemma cp_mad : forall p (X : list (list R)), wf n p X -> mad (reorder o X) = mad X.
  Proof.
    intros p X HX. unfold mad, mad_with. rewrite (cp_median p) by auto. f_equal. unfold rows_op. rewrite <- !reorder_map. apply (cp_median p).
    apply wf_mapmap, wf_map2_rows; auto. rewrite median_length. apply (wf_ncols n p); auto.
  Qed.
  Lemma cp_tmatvec : forall p (X : list (list R)) y, wf n p X -> length y = n -> tmatvec (reorder o X) (reorder o y) = map (Rmult (INR k)) (tmatvec X y).
  Proof.
    intros p X y HX Hy. unfold tmatvec. rewrite (cp_cols p) by auto. rewrite !map_map. apply map_ext_in. intros c Hc. apply cp_dot; auto. eapply wf_row; [apply wf_cols; eauto|exact Hc].
  Qed.
  Lemma cp_gram : forall p q (X Y : list (list R)), wf n p X -> wf n q Y -> matmul (transpose (reorder o X)) (reorder o Y) = map (map (Rmult (INR k))) (matmul (transpose X) Y).
  Proof.
    intros p q X Y HX HY. unfold matmul, transpose. rewrite (cp_cols p X), (cp_cols q Y) by auto. rewrite !map_map. apply map_ext_in. intros c Hc.
    rewrite !map_map. apply map_ext_in. intros d Hd. apply cp_dot; [apply (wf_row p n (cols X))|apply (wf_row q n (cols Y))]; auto; apply wf_cols; auto.
  Qed.
  Lemma cp_of_cols : forall cs : list (list R), Forall (fun c => length c = n) cs -> of_cols (k * n) (map (reorder o) cs) = reorder o (of_cols n cs).
  Proof.
    intros cs HF. unfold of_cols. rewrite reorder_map. assert (E : reorder o (seq 0 n) = o).
    { rewrite (cp_nth _ O) by apply seq_length. rewrite <- (map_id o) at 2. apply map_ext_in. intros i Hi. rewrite seq_nth by (eapply copies_in; eauto). reflexivity. }
    rewrite E. assert (Hlen : length o = (k * n)%nat) by (apply copies_length; auto). rewrite Forall_forall in HF.
    apply (list_ext _ _ []); [rewrite !map_length, seq_length; auto|]. intros j Hj. rewrite map_length, seq_length in Hj.
    rewrite (nth_map_lt _ _ _ O) by (rewrite seq_length; auto). rewrite seq_nth by auto. rewrite (nth_map_lt _ _ _ O) by lia. rewrite map_map. apply map_ext_in. intros c Hc.
    rewrite (cp_nth c 0) by auto. cbn [plus]. rewrite (nth_map_lt _ _ _ O) by lia. reflexivity.
  Qed.
  Lemma cp_repeat : forall {T} (x : T), reorder o (repeat x n) = repeat x (k * n).
  Proof.
    intros T x. rewrite (cp_nth _ x) by apply repeat_length. rewrite <- (copies_length _ _ _ Ho). generalize n. clear. intros m.
    induction o as [|i o' IH]; auto. cbn. rewrite IH. f_equal. apply nth_repeat.
  Qed.
End Copies.
