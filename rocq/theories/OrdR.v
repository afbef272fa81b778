(** Sorting and order statistics over the reals. *)

From Coq Require Import Reals List Arith ZArith Bool Lia Lra Permutation Sorted.
Import ListNotations.
From Verif Require Import Num Err Vec VecR.
Open Scope R_scope.

Lemma insert_perm : forall (x : R) l, Permutation (x :: l) (insert x l).
Proof.
  intros x l; induction l as [|y l IH]; cbn; auto. rnum.
  destruct (Rleb x y); auto.
  eapply perm_trans; [apply perm_swap|]. constructor; exact IH.
Qed.

Lemma sort_perm : forall l : list R, Permutation l (sort l).
Proof.
  intros l; induction l as [|x l IH]; cbn; auto.
  eapply perm_trans; [|apply insert_perm]. constructor; exact IH.
Qed.

Lemma sort_length : forall l : list R, length (sort l) = length l.
Proof. intros; symmetry; apply Permutation_length, sort_perm. Qed.

Lemma insert_sorted : forall (x : R) l, StronglySorted Rle l -> StronglySorted Rle (insert x l).
Proof.
  intros x l Hs; induction Hs as [|y l Hs IH Hy]; cbn.
  - constructor; constructor.
  - rnum. destruct (Rleb x y) eqn:E; rcmp_all.
    + constructor; [constructor; assumption|]. constructor; [exact E|].
      eapply Forall_impl; [|exact Hy]. intros z Hz; cbn in Hz; lra.
    + constructor; [exact IH|].
      rewrite Forall_forall in *. intros z Hz.
      apply (Permutation_in z (Permutation_sym (insert_perm x l))) in Hz.
      destruct Hz as [<-|Hz]; [lra|auto].
Qed.

Lemma sort_sorted : forall l : list R, StronglySorted Rle (sort l).
Proof. intros l; induction l as [|x l IH]; cbn; [constructor|apply insert_sorted, IH]. Qed.

Lemma sorted_perm_unique : forall l l' : list R,
  StronglySorted Rle l -> StronglySorted Rle l' -> Permutation l l' -> l = l'.
Proof.
  intros l; induction l as [|x l IH]; intros l' Hs Hs' Hp.
  - apply Permutation_nil in Hp; auto.
  - destruct l' as [|y l']; [apply Permutation_sym, Permutation_nil in Hp; discriminate|].
    inversion Hs as [|x0 l0 Hl Hx]; subst. inversion Hs' as [|y0 l0' Hl' Hy]; subst.
    rewrite Forall_forall in *.
    assert (x = y).
    { assert (In y (x :: l)) as [Hxy|Hin1] by (apply (Permutation_in y (Permutation_sym Hp)); left; auto); auto.
      assert (In x (y :: l')) as [Hyx|Hin2] by (apply (Permutation_in x Hp); left; auto); auto.
      specialize (Hx _ Hin1). specialize (Hy _ Hin2). lra. }
    subst y. f_equal. apply IH; auto. eapply Permutation_cons_inv; exact Hp.
Qed.

Lemma sort_permutation : forall l l' : list R, Permutation l l' -> sort l = sort l'.
Proof.
  intros l l' Hp. apply sorted_perm_unique; try apply sort_sorted.
  eapply perm_trans; [apply Permutation_sym, sort_perm|].
  eapply perm_trans; [exact Hp|apply sort_perm].
Qed.

Lemma sort_of_sorted : forall l : list R, StronglySorted Rle l -> sort l = l.
Proof.
  intros l Hs; apply sorted_perm_unique; [apply sort_sorted|exact Hs|apply Permutation_sym, sort_perm].
Qed.

Lemma map_sorted_incr : forall (f : R -> R) l, (forall x y, x <= y -> f x <= f y) ->
  StronglySorted Rle l -> StronglySorted Rle (map f l).
Proof.
  intros f l Hf Hs; induction Hs as [|y l Hs IH Hy]; cbn; constructor; auto.
  rewrite Forall_forall in *. intros z Hz; apply in_map_iff in Hz as [w [<- Hw]]; auto.
Qed.

Lemma sorted_app : forall l l' : list R, StronglySorted Rle l -> StronglySorted Rle l' ->
  (forall x y, In x l -> In y l' -> x <= y) -> StronglySorted Rle (l ++ l').
Proof.
  intros l l' Hs Hs' Hc; induction Hs as [|y l Hs IH Hy]; cbn; auto.
  constructor; [apply IH; intros; apply Hc; auto; right; auto|].
  rewrite Forall_forall in *. intros z Hz; apply in_app_or in Hz as [Hz|Hz]; auto.
  apply Hc; auto; left; auto.
Qed.

Lemma map_sorted_decr : forall (f : R -> R) l, (forall x y, x <= y -> f y <= f x) ->
  StronglySorted Rle l -> StronglySorted Rle (rev (map f l)).
Proof.
  intros f l Hf Hs; induction Hs as [|y l Hs IH Hy]; cbn; [constructor|].
  apply sorted_app; auto; [repeat constructor|].
  intros x z Hx [<-|[]]. apply in_rev in Hx. apply in_map_iff in Hx as [w [<- Hw]].
  rewrite Forall_forall in Hy; auto.
Qed.

Lemma sort_map_incr : forall (f : R -> R) l, (forall x y, x <= y -> f x <= f y) ->
  sort (map f l) = map f (sort l).
Proof.
  intros f l Hf. apply sorted_perm_unique; [apply sort_sorted|apply map_sorted_incr; auto; apply sort_sorted|].
  eapply perm_trans; [apply Permutation_sym, sort_perm|]. apply Permutation_map, sort_perm.
Qed.

Lemma sort_map_decr : forall (f : R -> R) l, (forall x y, x <= y -> f y <= f x) ->
  sort (map f l) = rev (map f (sort l)).
Proof.
  intros f l Hf. apply sorted_perm_unique; [apply sort_sorted|apply map_sorted_decr; auto; apply sort_sorted|].
  eapply perm_trans; [apply Permutation_sym, sort_perm|].
  eapply perm_trans; [apply Permutation_map, sort_perm|apply Permutation_rev].
Qed.

Lemma sorted_nth_mono : forall (s : list R) i j, StronglySorted Rle s ->
  (i <= j < length s)%nat -> nth i s 0 <= nth j s 0.
Proof.
  intros s i j Hs; revert i j; induction Hs as [|y l Hs IH Hy]; intros i j [Hij Hj]; cbn in *; [lia|].
  destruct i as [|i], j as [|j]; try lra; try lia.
  - rewrite Forall_forall in Hy; apply Hy, nth_In; lia.
  - apply IH; lia.
Qed.

(** ** counting *)
Definition count_le (v : R) (l : list R) : nat := length (filter (fun x => Rleb x v) l).
Definition count_lt (v : R) (l : list R) : nat := length (filter (fun x => Rltb x v) l).

Lemma filter_length_perm : forall {B} (f : B -> bool) l l', Permutation l l' ->
  length (filter f l) = length (filter f l').
Proof.
  intros B f l l' Hp; induction Hp; cbn; auto; try congruence;
    repeat match goal with |- context [if ?b then _ else _] => destruct b end; cbn; congruence.
Qed.

Lemma count_le_sort : forall v l, count_le v (sort l) = count_le v l.
Proof. intros; apply filter_length_perm, Permutation_sym, sort_perm. Qed.
Lemma count_lt_sort : forall v l, count_lt v (sort l) = count_lt v l.
Proof. intros; apply filter_length_perm, Permutation_sym, sort_perm. Qed.

Lemma filter_length_le : forall {B} (f : B -> bool) l, (length (filter f l) <= length l)%nat.
Proof. intros B f l; induction l as [|x l IH]; cbn; auto; destruct (f x); cbn; lia. Qed.

Lemma sorted_nth_le_count : forall s v k, StronglySorted Rle s -> (k < length s)%nat ->
  (nth k s 0 <= v <-> (k < count_le v s)%nat).
Proof.
  intros s v k Hs; revert k; induction Hs as [|y l Hs IH Hy]; intros k Hk; cbn in *; [lia|].
  unfold count_le; cbn [filter]. destruct (Rleb y v) eqn:E; rcmp_all; cbn [length].
  - destruct k as [|k]; [split; intros; [lia|lra]|].
    rewrite (IH k) by lia. unfold count_le; lia.
  - assert (Hz : count_le v l = 0%nat).
    { unfold count_le. rewrite Forall_forall in Hy. clear -Hy E.
      induction l as [|z l IHl]; auto. cbn [filter].
      assert (y <= z) by (apply Hy; left; auto).
      destruct (Rleb z v) eqn:E2; rcmp_all; [lra|]. apply IHl. intros w Hw; apply Hy; right; auto. }
    unfold count_le in Hz. rewrite Hz. split; [|lia]. intros Hn.
    destruct k as [|k]; [lra|]. rewrite Forall_forall in Hy.
    assert (y <= nth k l 0) by (apply Hy, nth_In; lia). lra.
Qed.

Lemma sorted_nth_ge_count : forall s v k, StronglySorted Rle s -> (k < length s)%nat ->
  (v <= nth k s 0 <-> (count_lt v s <= k)%nat).
Proof.
  intros s v k Hs; revert k; induction Hs as [|y l Hs IH Hy]; intros k Hk; cbn in *; [lia|].
  unfold count_lt; cbn [filter]. destruct (Rltb y v) eqn:E; rcmp_all; cbn [length].
  - destruct k as [|k]; [split; intros; [lra|lia]|].
    rewrite (IH k) by lia. unfold count_lt; lia.
  - assert (Hz : count_lt v l = 0%nat).
    { unfold count_lt. rewrite Forall_forall in Hy. clear -Hy E.
      induction l as [|z l IHl]; auto. cbn [filter].
      assert (y <= z) by (apply Hy; left; auto).
      destruct (Rltb z v) eqn:E2; rcmp_all; [lra|]. apply IHl. intros w Hw; apply Hy; right; auto. }
    unfold count_lt in Hz. rewrite Hz. split; [lia|]. intros _.
    destruct k as [|k]; [lra|]. rewrite Forall_forall in Hy.
    assert (y <= nth k l 0) by (apply Hy, nth_In; lia). lra.
Qed.

Lemma sort_nth_le_count : forall l v k, (k < length l)%nat ->
  (nth k (sort l) 0 <= v <-> (k < count_le v l)%nat).
Proof. intros; rewrite sorted_nth_le_count, count_le_sort by (try apply sort_sorted; rewrite sort_length; auto); reflexivity. Qed.
Lemma sort_nth_ge_count : forall l v k, (k < length l)%nat ->
  (v <= nth k (sort l) 0 <-> (count_lt v l <= k)%nat).
Proof. intros; rewrite sorted_nth_ge_count, count_lt_sort by (try apply sort_sorted; rewrite sort_length; auto); reflexivity. Qed.

Lemma sort_nth_in : forall l k, (k < length l)%nat -> In (nth k (sort l) 0) l.
Proof.
  intros l k Hk. apply (Permutation_in _ (Permutation_sym (sort_perm l))). apply nth_In. rewrite sort_length; auto.
Qed.

(** ** medians *)
Lemma vmedian_R : forall l : list R, l <> [] ->
  vmedian l = if Nat.even (length l)
              then (nth (length l / 2 - 1) (sort l) 0 + nth (length l / 2) (sort l) 0) / 2
              else nth (length l / 2) (sort l) 0.
Proof.
  intros l Hl; unfold vmedian; destruct l as [|x l]; [congruence|].
  rewrite nnat_R. reflexivity.
Qed.

Lemma vmedian_perm : forall l l' : list R, Permutation l l' -> vmedian l = vmedian l'.
Proof.
  intros l l' Hp. unfold vmedian.
  rewrite (sort_permutation _ _ Hp), (Permutation_length Hp).
  destruct l as [|x l], l' as [|y l']; auto.
  - apply Permutation_nil in Hp; discriminate.
  - apply Permutation_sym, Permutation_nil in Hp; discriminate.
Qed.

Lemma half_lt : forall n, (0 < n)%nat -> (n / 2 < n)%nat.
Proof. intros; apply Nat.div_lt; lia. Qed.
Lemma even_half : forall n, Nat.even n = true -> n = (2 * (n / 2))%nat.
Proof. intros n Hn. apply Nat.even_spec in Hn as [k ->]. rewrite Nat.mul_comm, Nat.div_mul by lia. lia. Qed.
Lemma odd_half : forall n, Nat.even n = false -> n = (2 * (n / 2) + 1)%nat.
Proof.
  intros n Hn. assert (Ho : Nat.odd n = true) by (unfold Nat.odd; rewrite Hn; reflexivity).
  apply Nat.odd_spec in Ho as [k ->].
  replace ((2 * k + 1) / 2)%nat with k; [lia|].
  apply (Nat.div_unique (2 * k + 1) 2 k 1); lia.
Qed.

(** the median is the average of order statistics lo <= hi with lo + hi = n - 1 *)
Lemma vmedian_lohi : forall l : list R, l <> [] -> exists lo hi,
  (lo <= hi < length l)%nat /\ (lo + hi = length l - 1)%nat /\ (hi <= lo + 1)%nat /\
  forall l' : list R, length l' = length l ->
  vmedian l' = (nth lo (sort l') 0 + nth hi (sort l') 0) / 2.
Proof.
  intros l Hl. assert (Hn : (0 < length l)%nat) by (destruct l; [congruence|cbn; lia]).
  destruct (Nat.even (length l)) eqn:E.
  - apply even_half in E as E2. exists (length l / 2 - 1)%nat, (length l / 2)%nat.
    repeat split; try lia. intros l' Hl'. rewrite vmedian_R by (intros ->; cbn in *; lia). rewrite Hl', E. reflexivity.
  - apply odd_half in E as E2. exists (length l / 2)%nat, (length l / 2)%nat.
    repeat split; try lia. intros l' Hl'. rewrite vmedian_R by (intros ->; cbn in *; lia). rewrite Hl', E. lra.
Qed.

Lemma vmedian_incr_affine : forall a b (l : list R), l <> [] -> 0 <= a ->
  vmedian (map (fun x => a * x + b) l) = a * vmedian l + b.
Proof.
  intros a b l Hl Ha. destruct (vmedian_lohi l Hl) as [lo [hi [H1 [H2 [H3 Hm]]]]].
  rewrite (Hm l eq_refl), Hm by apply map_length.
  rewrite sort_map_incr by (intros; nra).
  rewrite !(nth_map_lt _ _ _ 0) by (rewrite sort_length; lia). lra.
Qed.

Lemma vmedian_decr_affine : forall a b (l : list R), l <> [] -> a <= 0 ->
  vmedian (map (fun x => a * x + b) l) = a * vmedian l + b.
Proof.
  intros a b l Hl Ha. destruct (vmedian_lohi l Hl) as [lo [hi [H1 [H2 [H3 Hm]]]]].
  rewrite (Hm l eq_refl), Hm by apply map_length.
  rewrite sort_map_decr by (intros; nra).
  rewrite !rev_nth by (rewrite map_length, sort_length; lia).
  rewrite !map_length, !sort_length.
  replace (length l - S lo)%nat with hi by lia. replace (length l - S hi)%nat with lo by lia.
  rewrite !(nth_map_lt _ _ _ 0) by (rewrite sort_length; lia). lra.
Qed.

Lemma vmedian_affine : forall a b (l : list R), l <> [] ->
  vmedian (map (fun x => a * x + b) l) = a * vmedian l + b.
Proof.
  intros a b l Hl. destruct (Rle_dec 0 a); [apply vmedian_incr_affine|apply vmedian_decr_affine]; auto; lra.
Qed.

(** more than half of the values in [a,b] => the median is in [a,b] *)
Definition count_in (a b : R) (l : list R) : nat :=
  length (filter (fun x => Rleb a x && Rleb x b) l).

Lemma count_in_le : forall a b l, (count_in a b l <= count_le b l)%nat.
Proof.
  intros a b l; unfold count_in, count_le; induction l as [|x l IH]; cbn; auto.
  destruct (Rleb a x), (Rleb x b); cbn; lia.
Qed.
Lemma count_in_lt : forall a b l, (count_in a b l + count_lt a l <= length l)%nat.
Proof.
  intros a b l; unfold count_in, count_lt; induction l as [|x l IH]; cbn; auto.
  destruct (Rleb a x) eqn:E1, (Rleb x b), (Rltb x a) eqn:E2; cbn; rcmp_all; try lra; lia.
Qed.

Lemma vmedian_majority : forall (l : list R) a b, (length l < 2 * count_in a b l)%nat -> a <= vmedian l <= b.
Proof.
  intros l a b Hc. assert (Hl : l <> []) by (intros ->; cbn in Hc; lia).
  destruct (vmedian_lohi l Hl) as [lo [hi [H1 [H2 [H3 Hm]]]]]. rewrite (Hm l eq_refl).
  pose proof (count_in_le a b l). pose proof (count_in_lt a b l).
  assert (a <= nth lo (sort l) 0) by (apply sort_nth_ge_count; lia).
  assert (nth hi (sort l) 0 <= b) by (apply sort_nth_le_count; lia).
  assert (nth lo (sort l) 0 <= nth hi (sort l) 0)
    by (apply sorted_nth_mono; [apply sort_sorted|rewrite sort_length; lia]). lra.
Qed.

Lemma count_in_all : forall a b l, Forall (fun x => a <= x <= b) l -> count_in a b l = length l.
Proof.
  intros a b l Hl; induction Hl as [|x l Hx Hl IH]; auto. unfold count_in in *; cbn [filter].
  replace (Rleb a x && Rleb x b)%bool with true by (symmetry; apply andb_true_iff; split; apply Rleb_true; lra).
  cbn; lia.
Qed.

Lemma vmedian_bounds : forall (l : list R) a b, l <> [] -> Forall (fun x => a <= x <= b) l -> a <= vmedian l <= b.
Proof.
  intros l a b Hl HF. apply vmedian_majority. rewrite count_in_all by exact HF.
  destruct l; [congruence|cbn; lia].
Qed.

Lemma vmedian_const : forall (l : list R) a, l <> [] -> Forall (fun x => x = a) l -> vmedian l = a.
Proof.
  intros l a Hl HF. assert (a <= vmedian l <= a); [|lra].
  apply vmedian_bounds; auto. eapply Forall_impl; [|exact HF]. cbn; intros; lra.
Qed.
