(** Reordering of cases: general lemmas. *)

From Coq Require Import Reals List Arith ZArith Bool Lia Lra Permutation.
Import ListNotations.
From Verif Require Import Num Err Vec VecR OrdR L_Mat L_Lin L_Matmul S_Stats S_Order.
Open Scope R_scope.

Lemma order_in : forall n o i, case_order n o -> In i o -> (i < n)%nat.
Proof. intros n o i Ho Hi. apply (Permutation_in _ (Permutation_sym Ho)) in Hi. apply in_seq in Hi. lia. Qed.
Lemma order_length : forall n o, case_order n o -> length o = n.
Proof. intros n o Ho. rewrite <- (Permutation_length Ho). apply seq_length. Qed.
Lemma reorder_map_nth : forall {T} o (l : list T) d, (forall i, In i o -> (i < length l)%nat) -> reorder o l = map (fun i => nth i l d) o.
Proof.
  intros T o l d; induction o as [|i o IH]; intros H; auto. cbn [reorder flat_map map]. fold (reorder o l). rewrite IH by (intros; apply H; right; auto).
  assert (Hi : (i < length l)%nat) by (apply H; left; auto). rewrite (nth_error_nth' l d Hi). reflexivity.
Qed.
Lemma reorder_nth : forall {T} n o (l : list T) d, case_order n o -> length l = n -> reorder o l = map (fun i => nth i l d) o.
Proof. intros T n o l d Ho Hl. apply reorder_map_nth. intros i Hi. rewrite Hl. eapply order_in; eauto. Qed.
Lemma reorder_length : forall {T} n o (l : list T), case_order n o -> length l = n -> length (reorder o l) = n.
Proof.
  intros T n o l Ho Hl. destruct l as [|x l]; [cbn in Hl; subst n; apply Permutation_nil in Ho; subst o; reflexivity|].
  rewrite (reorder_nth n o _ x) by auto. rewrite map_length. apply (order_length n); auto.
Qed.
Lemma reorder_perm : forall {T} n o (l : list T), case_order n o -> length l = n -> Permutation l (reorder o l).
Proof.
  intros T n o l Ho Hl. destruct l as [|x l]; [cbn in Hl; subst n; apply Permutation_nil in Ho; subst o; constructor|].
  rewrite (reorder_nth n o _ x) by auto. transitivity (map (fun i => nth i (x :: l) x) (seq 0 n)); [|apply Permutation_map, Ho].
  rewrite <- Hl. rewrite (map_nth_seq (x :: l) x). reflexivity.
Qed.
Lemma reorder_map : forall {T U} (f : T -> U) o l, reorder o (map f l) = map f (reorder o l).
Proof.
  intros T U f o l; induction o as [|i o IH]; auto. cbn [reorder flat_map]. fold (reorder o (map f l)) (reorder o l). rewrite IH, map_app. f_equal.
  rewrite nth_error_map. destruct (nth_error l i); reflexivity.
Qed.
Lemma reorder_map2 : forall {T U V} (f : T -> U -> V) n o l m, case_order n o -> length l = n -> length m = n ->
  reorder o (map2 f l m) = map2 f (reorder o l) (reorder o m).
Proof.
  intros T U V f n o l m Ho Hl Hm. destruct l as [|x l], m as [|z m]; cbn in Hl, Hm; try lia; [subst n; apply Permutation_nil in Ho; subst; reflexivity|].
  assert (Hi : forall i, In i o -> (i < n)%nat) by (intros; eapply order_in; eauto).
  rewrite (reorder_nth n o (map2 f (x :: l) (z :: m)) (f x z)) by (rewrite ?map2_length_eq; cbn; auto; lia).
  rewrite (reorder_nth n o (x :: l) x), (reorder_nth n o (z :: m) z) by (cbn; auto).
  assert (Hn : forall i, (i < n)%nat -> nth i (map2 f (x :: l) (z :: m)) (f x z) = f (nth i (x :: l) x) (nth i (z :: m) z)) by (intros i Hin; apply (nth_map2 f (x :: l) (z :: m)); cbn [length]; lia).
  revert Hn. generalize (map2 f (x :: l) (z :: m)), (x :: l), (z :: m). intros L l' m' Hn.
  clear Ho. induction o as [|i o IH]; auto. cbn [map map2]. rewrite IH by (intros; apply Hi; right; auto). f_equal. apply Hn, Hi. left; auto.
Qed.
Lemma reorder_combine : forall {T U} n o (l : list T) (m : list U), case_order n o -> length l = n -> length m = n ->
  combine (reorder o l) (reorder o m) = reorder o (combine l m).
Proof.
  intros T U n o l m Ho Hl Hm. assert (E : forall (a : list T) (b : list U), combine a b = map2 (@pair T U) a b) by (induction a as [|u a IHa]; intros [|v b]; cbn; auto; rewrite IHa; auto).
  rewrite !E. symmetry. apply (reorder_map2 _ n); auto.
Qed.
Lemma reorder_wf : forall {A} `{Num A} n p o (X : mat A), case_order n o -> wf n p X -> wf n p (reorder o X).
Proof. intros A HA n p o X Ho HX. apply (wf_perm n p X); auto. apply (reorder_perm n); auto. eapply wf_length; eauto. Qed.
Lemma reorder_col : forall {A} `{Num A} o (X : mat A) j, col j (reorder o X) = reorder o (col j X).
Proof. intros. unfold col. rewrite reorder_map. reflexivity. Qed.
Lemma reorder_dot : forall n o (u v : list R), case_order n o -> length u = n -> length v = n -> dot (reorder o u) (reorder o v) = dot u v.
Proof.
  intros n o u v Ho Hu Hv. unfold dot. rewrite <- (reorder_map2 _ n) by auto. symmetry. apply vsum_perm, (reorder_perm n); auto. rewrite map2_length_eq; congruence.
Qed.
Lemma reorder_sqnorm : forall n o (u : list R), case_order n o -> length u = n -> vsqnorm (reorder o u) = vsqnorm u.
Proof. intros. rewrite <- !dot_self_sqnorm. apply (reorder_dot n); auto. Qed.
Lemma reorder_matvec : forall o (X : list (list R)) w, matvec (reorder o X) w = reorder o (matvec X w).
Proof. intros. unfold matvec. rewrite reorder_map. reflexivity. Qed.
Lemma reorder_cols : forall {A} `{Num A} n p o (X : mat A), case_order n o -> wf n p X -> (0 < n)%nat -> cols (reorder o X) = map (reorder o) (cols X).
Proof.
  intros A HA n p o X Ho HX Hn. unfold cols. rewrite (wf_ncols n p X), (wf_ncols n p (reorder o X)) by (auto using reorder_wf). rewrite map_map. apply map_ext. intros. apply reorder_col.
Qed.
Lemma reorder_tmatvec : forall n p o (X : list (list R)) y, case_order n o -> wf n p X -> (0 < n)%nat -> length y = n -> tmatvec (reorder o X) (reorder o y) = tmatvec X y.
Proof.
  intros n p o X y Ho HX Hn Hy. unfold tmatvec. rewrite (reorder_cols n p) by auto. rewrite map_map. apply map_ext_in. intros c Hc.
  apply (reorder_dot n); auto. eapply wf_row; [apply wf_cols; eauto|exact Hc].
Qed.
Lemma reorder_gram : forall n p q o (X Y : list (list R)), case_order n o -> wf n p X -> wf n q Y -> (0 < n)%nat ->
  matmul (transpose (reorder o X)) (reorder o Y) = matmul (transpose X) Y.
Proof.
  intros n p q o X Y Ho HX HY Hn. unfold matmul, transpose. rewrite (reorder_cols n p o X), (reorder_cols n q o Y) by auto. rewrite map_map. apply map_ext_in. intros c Hc.
  rewrite map_map. apply map_ext_in. intros d Hd. apply (reorder_dot n); auto; [apply (wf_row p n (cols X))|apply (wf_row q n (cols Y))]; auto; apply wf_cols; auto.
Qed.
Lemma reorder_matmul : forall o (X Y : list (list R)), matmul (reorder o X) Y = reorder o (matmul X Y).
Proof. intros. unfold matmul. rewrite reorder_map. reflexivity. Qed.
Lemma reorder_outer : forall o (t q : list R), outer (reorder o t) q = reorder o (outer t q).
Proof. intros. unfold outer. rewrite reorder_map. reflexivity. Qed.
Lemma reorder_msub : forall n o (X Y : list (list R)), case_order n o -> length X = n -> length Y = n -> msub (reorder o X) (reorder o Y) = reorder o (msub X Y).
Proof. intros. unfold msub. symmetry. apply (reorder_map2 _ n); auto. Qed.
Lemma reorder_vsub : forall n o (u v : list R), case_order n o -> length u = n -> length v = n -> vsub (reorder o u) (reorder o v) = reorder o (vsub u v).
Proof. intros. unfold vsub. symmetry. apply (reorder_map2 _ n); auto. Qed.
Lemma reorder_of_cols : forall n o (cs : list (list R)), case_order n o -> Forall (fun c => length c = n) cs -> of_cols n (map (reorder o) cs) = reorder o (of_cols n cs).
Proof.
  intros n o cs Ho HF. unfold of_cols. rewrite reorder_map. assert (E : reorder o (seq 0 n) = o).
  { rewrite (reorder_nth n o _ O) by (auto; apply seq_length). rewrite <- (map_id o) at 2. apply map_ext_in. intros i Hi. rewrite seq_nth by (eapply order_in; eauto). reflexivity. }
  rewrite E. assert (Hlen : length o = n) by (apply order_length; auto). rewrite Forall_forall in HF.
  apply (list_ext _ _ []); [rewrite !map_length, seq_length; auto|]. intros j Hj. rewrite map_length, seq_length in Hj.
  rewrite (nth_map_lt _ _ _ O) by (rewrite seq_length; auto). rewrite seq_nth by auto. rewrite (nth_map_lt _ _ _ O) by lia. rewrite map_map. apply map_ext_in. intros c Hc.
  rewrite (reorder_nth n o c 0) by auto. cbn [plus]. rewrite (nth_map_lt _ _ _ O) by lia. reflexivity.
Qed.
Lemma reorder_repeat : forall {T} n o (x : T), case_order n o -> reorder o (repeat x n) = repeat x n.
Proof.
  intros T n o x Ho. rewrite (reorder_nth n o _ x) by (auto; apply repeat_length). transitivity (repeat x (length o)); [|rewrite (order_length n o Ho); reflexivity]. generalize n. clear Ho.
  induction o as [|i o IH]; intros m; auto. cbn. rewrite IH. f_equal. apply (nth_repeat x m i).
Qed.
