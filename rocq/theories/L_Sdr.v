(** Lemmas about the slicing of the response (M_SdrUtils.discretize) *)

From Coq Require Import Reals List Arith ZArith Bool Lra Lia Permutation Sorted.
Import ListNotations.
From Verif Require Import Num Err Vec VecR OrdR M_SdrUtils.
Open Scope R_scope.

Definition leR (a b : R) : bool := if Rle_dec a b then true else false.
(** number of entries of [d] not exceeding [v] *)
Definition below (d : list R) (v : R) : nat := length (filter (fun a => leR a v) d).

Lemma below_le : forall d v, (below d v <= length d)%nat.
Proof. intros d v. unfold below. induction d as [|a d IH]; cbn; [lia|]. destruct (leR a v); cbn; lia. Qed.

Lemma below_mono : forall d u v, u <= v -> (below d u <= below d v)%nat.
Proof.
  intros d u v E. unfold below, leR. induction d as [|a d IH]; cbn; [lia|].
  destruct (Rle_dec a u), (Rle_dec a v); cbn; try lia. lra.
Qed.

(** in a sorted list the entries not exceeding v come first *)
Lemma below_sorted : forall d v i, StronglySorted Rle d -> (i < length d)%nat -> (nth i d 0 <= v <-> (i < below d v)%nat).
Proof.
  intros d v. induction d as [|a d IH]; intros i Hs Hi; [cbn in Hi; lia|].
  inversion Hs as [|? ? Hs' Hf]; subst. unfold below, leR in *. cbn. destruct (Rle_dec a v) as [E|E]; cbn.
  - destruct i as [|i]; [split; intros; [lia|lra]|]. cbn in Hi. specialize (IH i Hs' ltac:(lia)). rewrite IH. lia.
  - assert (Z : filter (fun a0 => if Rle_dec a0 v then true else false) d = []).
    { clear - Hf E. induction d as [|b d IH]; [reflexivity|]. inversion Hf; subst. cbn. destruct (Rle_dec b v); [lra|auto]. }
    rewrite Z. cbn. split; [|lia]. intros E2. exfalso.
    destruct i as [|i]; [cbn in E2; lra|]. cbn in Hi, E2. rewrite Forall_forall in Hf.
    specialize (Hf (nth i d 0) ltac:(apply nth_In; lia)). lra.
Qed.

Lemma fold_only : forall (P : nat -> bool) c l b k, (forall i, In i l -> P i = true -> i = c) -> 
  fold_left (fun a i => if P i then (i + 1)%nat else a) l b = k ->
  (existsb P l = true -> k = (c + 1)%nat) /\ (existsb P l = false -> k = b).
Proof.
  intros P c l. induction l as [|i l IH]; intros b k Hc E; [cbn in *; split; [discriminate|auto]|].
  cbn [fold_left existsb] in *. specialize (IH _ k ltac:(intros; apply Hc; [right|]; auto) E).
  destruct (P i) eqn:Pi; cbn; destruct (existsb P l); destruct IH as [I1 I2]; split; intros; try discriminate; auto.
  rewrite (Hc i (or_introl eq_refl) Pi) in I2. auto.
Qed.

(** the label assigned to a value by the cut points *)
Definition label_of (h : nat) (d : list R) (v : R) : nat :=
  let l0 := if nltb v (nth 0 d 0) then 1%nat else 0%nat in
  let l1 := if nleb (nth (h - 2) d 0) v then h else l0 in
  fold_left (fun l i => if nleb (nth (i - 1) d 0) v && nltb v (nth i d 0) then (i + 1)%nat else l) (seq 1 (h - 2)) l1.

Lemma label_of_below : forall h d v, (2 <= h)%nat -> length d = (h - 1)%nat -> StronglySorted Rle d -> label_of h d v = S (below d v).
Proof.
  intros h d v Hh Hd Hs. unfold label_of.
  set (l1 := if nleb (nth (h - 2) d 0) v then h else _).
  set (P := fun i => nleb (nth (i - 1) d 0) v && nltb v (nth i d 0)).
  pose proof (below_le d v) as Hle.
  assert (HP : forall i, (1 <= i <= h - 2)%nat -> P i = true <-> i = below d v).
  { intros i Hi. unfold P. rnum. rewrite andb_true_iff. unfold Rleb, Rltb.
    pose proof (below_sorted d v (i - 1) Hs ltac:(lia)) as B1. pose proof (below_sorted d v i Hs ltac:(lia)) as B2.
    destruct (Rle_dec (nth (i - 1) d 0) v) as [E1|E1], (Rlt_dec v (nth i d 0)) as [E2|E2]; split; intros HH; try (destruct HH; discriminate).
    - apply B1 in E1. assert (~ (i < below d v)%nat) by (rewrite <- B2; lra). lia.
    - auto.
    - assert ((i < below d v)%nat) by (apply B2; lra). lia.
    - exfalso. apply E1, B1. lia.
    - exfalso. apply E1, B1. lia. }
  destruct (fold_only P (below d v) (seq 1 (h - 2)) l1 _ ltac:(intros i Hi; apply in_seq in Hi; apply HP; lia) eq_refl) as [F1 F2].
  change (fold_left (fun a i => if P i then (i + 1)%nat else a) (seq 1 (h - 2)) l1 = S (below d v)).
  destruct (existsb P (seq 1 (h - 2))) eqn:Ex.
  - rewrite F1 by reflexivity. lia.
  - rewrite F2 by reflexivity. unfold l1. rnum. unfold Rleb, Rltb.
    pose proof (below_sorted d v (h - 2) Hs ltac:(lia)) as B1. pose proof (below_sorted d v 0 Hs ltac:(lia)) as B2.
    destruct (Rle_dec (nth (h - 2) d 0) v) as [E1|E1]; [apply B1 in E1; lia|].
    destruct (Rlt_dec v (nth 0 d 0)) as [E2|E2].
    + assert (~ (0 < below d v)%nat) by (rewrite <- B2; lra). lia.
    + exfalso. assert ((0 < below d v)%nat) by (apply B2; lra). assert (~ (h - 2 < below d v)%nat) by (rewrite <- B1; auto).
      assert (existsb P (seq 1 (h - 2)) = true); [|congruence].
      apply existsb_exists. exists (below d v). split; [apply in_seq; lia|apply HP; lia].
Qed.

(** the cut points *)
Definition cuts (y : list R) (h : nat) : list R := map (fun i => nth (i * (length y / h)) (sort y) 0) (seq 1 (h - 1)).

Lemma sort_len : forall l : list R, length (sort l) = length l.
Proof. intros l. symmetry. apply Permutation_length, sort_perm. Qed.

Lemma cut_index : forall n h i, (0 < n)%nat -> (2 <= h)%nat -> (i < h)%nat -> (i * (n / h) < n)%nat.
Proof.
  intros n h i Hn Hh Hi. pose proof (Nat.mul_div_le n h ltac:(lia)) as E.
  destruct (Nat.eq_dec (n / h) 0) as [Z|Z]; [rewrite Z; lia|]. nia.
Qed.

Lemma discretize_R : forall (y : list R) h, (2 <= h)%nat -> y <> [] -> discretize y h = Ok (map (label_of h (cuts y h)) y).
Proof.
  intros y h Hh Hy. assert (Hn : (0 < length y)%nat) by (destruct y; [congruence|cbn; lia]).
  unfold discretize. destruct (h =? 0)%nat eqn:E0; [apply Nat.eqb_eq in E0; lia|].
  assert (EM : forall l, (forall i, In i l -> (i < h)%nat) ->
    mapM (fun i => match nth_error (sort y) (i * (length y / h)) with Some v => Ok v | None => Err IndexError end) l
    = Ok (map (fun i => nth (i * (length y / h)) (sort y) 0) l)).
  { induction l as [|i l IH]; intros Hl; [reflexivity|]. cbn [mapM map].
    rewrite (nth_error_nth' (sort y) 0) by (rewrite sort_len; apply cut_index; auto; apply Hl; left; auto).
    cbn [bind]. rewrite IH by (intros; apply Hl; right; auto). reflexivity. }
  rewrite EM by (intros i Hi; apply in_seq in Hi; lia). cbn [bind]. fold (cuts y h).
  destruct (cuts y h) as [|d0 ds] eqn:Ec; [exfalso; apply (f_equal (@length R)) in Ec; unfold cuts in Ec; rewrite map_length, seq_length in Ec; cbn in Ec; lia|].
  reflexivity.
Qed.

Lemma discretize_short : forall y h, (h < 2)%nat -> exists e, discretize (A := R) y h = Err e.
Proof. intros y h Hh. destruct h as [|[|h]]; [..|lia]; cbn; eauto. Qed.
Lemma discretize_empty : forall h, exists e, discretize (A := R) [] h = Err e.
Proof. intros [|[|[|h]]]; cbn; eauto. Qed.

Lemma sorted_nth : forall l i j, StronglySorted Rle l -> (i <= j < length l)%nat -> nth i l 0 <= nth j l 0.
Proof.
  induction l as [|a l IH]; intros i j Hs Hij; [cbn in Hij; lia|].
  inversion Hs as [|? ? Hs' Hf]; subst. rewrite Forall_forall in Hf. destruct i, j; cbn in *; try lia; try lra.
  - apply Hf, nth_In; lia.
  - apply IH; auto; lia.
Qed.

Lemma sorted_map_seq : forall (f : nat -> R) k s, (forall i j, (s <= i <= j)%nat -> (j < s + k)%nat -> f i <= f j) -> StronglySorted Rle (map f (seq s k)).
Proof.
  intros f. induction k as [|k IH]; intros s Hf; cbn; constructor.
  - apply IH. intros; apply Hf; lia.
  - apply Forall_forall. intros x Hx. apply in_map_iff in Hx as [i [<- Hi]]. apply in_seq in Hi. apply Hf; lia.
Qed.

Lemma cuts_sorted : forall y h, (2 <= h)%nat -> y <> [] -> StronglySorted Rle (cuts y h).
Proof.
  intros y h Hh Hy. assert (Hn : (0 < length y)%nat) by (destruct y; [congruence|cbn; lia]).
  apply sorted_map_seq. intros i j Hij Hj. apply sorted_nth; [apply sort_sorted|]. rewrite sort_len.
  split; [nia|apply cut_index; lia].
Qed.
Lemma cuts_length : forall y h, length (cuts y h) = (h - 1)%nat.
Proof. intros. unfold cuts. rewrite map_length, seq_length. reflexivity. Qed.

Lemma discretize_below : forall (y : list R) h, (2 <= h)%nat -> y <> [] -> discretize y h = Ok (map (fun v => S (below (cuts y h) v)) y).
Proof.
  intros y h Hh Hy. rewrite discretize_R by auto. f_equal. apply map_ext. intros v.
  apply label_of_below; [auto|apply cuts_length|apply cuts_sorted; auto].
Qed.

(** without ties *)
Lemma sorted_nodup_lt : forall l i j, StronglySorted Rle l -> NoDup l -> (i < length l)%nat -> (j < length l)%nat -> (nth i l 0 <= nth j l 0 <-> (i <= j)%nat).
Proof.
  intros l i j Hs Hd Hi Hj. split.
  - intros E. destruct (le_lt_dec i j) as [L|L]; auto.
    assert (nth j l 0 <= nth i l 0) by (apply sorted_nth; auto; lia).
    assert (E2 : nth i l 0 = nth j l 0) by lra. apply (NoDup_nth l 0) in E2; auto; lia.
  - intros E. apply sorted_nth; auto; lia.
Qed.

Lemma filter_map_len : forall {B C} (f : B -> C) (q : C -> bool) l, length (filter q (map f l)) = length (filter (fun b => q (f b)) l).
Proof. intros B C f q l. induction l as [|a l IH]; [reflexivity|]. cbn. destruct (q (f a)); cbn; congruence. Qed.

Lemma filter_seq_le : forall m k s i, (0 < m)%nat -> length (filter (fun j => (j * m <=? i)%nat) (seq s k)) = (Nat.min (s + k) (S (i / m)) - s)%nat.
Proof.
  intros m k. induction k as [|k IH]; intros s i Hm; cbn; [lia|].
  destruct (s * m <=? i)%nat eqn:E; cbn; rewrite IH by auto.
  - apply Nat.leb_le in E. assert ((s <= i / m)%nat) by (apply Nat.div_le_lower_bound; lia). lia.
  - apply Nat.leb_gt in E. assert ((i / m < s)%nat) by (apply Nat.div_lt_upper_bound; lia). lia.
Qed.

Lemma below_cuts : forall y h i, (2 <= h)%nat -> NoDup y -> (h <= length y)%nat -> (i < length y)%nat ->
  below (cuts y h) (nth i (sort y) 0) = Nat.min (h - 1) (i / (length y / h)).
Proof.
  intros y h i Hh Hd Hn Hi. unfold below, cuts. rewrite filter_map_len.
  assert (Hm : (0 < length y / h)%nat) by (apply Nat.div_str_pos; lia).
  assert (Hs : NoDup (sort y)) by (eapply Permutation_NoDup; [apply sort_perm|auto]).
  rewrite (filter_ext_in _ (fun j => (j * (length y / h) <=? i)%nat)).
  - rewrite filter_seq_le by auto. lia.
  - intros j Hj. apply in_seq in Hj. unfold leR.
    pose proof (sorted_nodup_lt (sort y) (j * (length y / h)) i (sort_sorted y) Hs) as E. rewrite sort_len in E.
    specialize (E ltac:(apply cut_index; lia) Hi).
    destruct (Rle_dec _ _) as [L|L]; symmetry; [apply Nat.leb_le; tauto|apply Nat.leb_gt]. 
    destruct (le_lt_dec (j * (length y / h)) i); [tauto|auto].
Qed.

Lemma filter_perm_len : forall {B} (q : B -> bool) l l', Permutation l l' -> length (filter q l) = length (filter q l').
Proof.
  intros B q l l' E. induction E; cbn; auto.
  - destruct (q x); cbn; congruence.
  - destruct (q x), (q y); reflexivity.
  - congruence.
Qed.

Lemma count_interval : forall a b n s, length (filter (fun i => (a <=? i)%nat && (i <? b)%nat) (seq s n)) = (Nat.min b (s + n) - Nat.max a s)%nat.
Proof.
  intros a b n. induction n as [|n IH]; intros s; [cbn; lia|]. cbn [seq filter].
  destruct (a <=? s)%nat eqn:E1, (s <? b)%nat eqn:E2; cbn [andb length]; rewrite IH;
    rewrite ?Nat.leb_le, ?Nat.leb_gt, ?Nat.ltb_lt, ?Nat.ltb_ge in *; lia.
Qed.

Definition count_label (k : nat) (l : list nat) : nat := length (filter (Nat.eqb k) l).

Lemma discretize_counts : forall (y : list R) h l k, (2 <= h)%nat -> NoDup y -> (h <= length y)%nat -> discretize y h = Ok l ->
  ((1 <= k < h)%nat -> count_label k l = (length y / h)%nat) /\ count_label h l = (length y - (h - 1) * (length y / h))%nat.
Proof.
  intros y h l k Hh Hd Hn E. assert (Hy : y <> []) by (destruct y; [cbn in Hn; lia|congruence]).
  rewrite discretize_below in E by auto. apply Ok_inj in E. subst l.
  assert (Hm : (0 < length y / h)%nat) by (apply Nat.div_str_pos; lia).
  set (m := (length y / h)%nat) in *. pose proof (Nat.mul_div_le (length y) h ltac:(lia)) as Hmn. fold m in Hmn.
  assert (G : forall q, length (filter q (map (fun v => S (below (cuts y h) v)) y)) = length (filter (fun i => q (S (Nat.min (h - 1) (i / m)))) (seq 0 (length y)))).
  { intros q. rewrite filter_map_len. rewrite (filter_perm_len _ _ _ (sort_perm y)).
    rewrite <- (map_nth_seq (sort y) 0) at 1. rewrite filter_map_len, sort_len. f_equal. apply filter_ext_in. intros i Hi.
    apply in_seq in Hi. rewrite below_cuts by (auto; lia). reflexivity. }
  unfold count_label. rewrite !G. split.
  - intros Hk. rewrite (filter_ext_in _ (fun i => ((k - 1) * m <=? i)%nat && (i <? k * m)%nat)).
    + rewrite count_interval. nia.
    + intros i _. pose proof (Nat.div_mod i m ltac:(lia)) as D. pose proof (Nat.mod_upper_bound i m ltac:(lia)) as D2.
      destruct (Nat.eqb k (S (Nat.min (h - 1) (i / m)))) eqn:Ek; symmetry.
      * apply Nat.eqb_eq in Ek. apply andb_true_iff. rewrite Nat.leb_le, Nat.ltb_lt. assert (i / m = k - 1)%nat by lia. nia.
      * apply Nat.eqb_neq in Ek. apply andb_false_iff. rewrite Nat.leb_gt, Nat.ltb_ge.
        destruct (le_lt_dec k (i / m)); [right; nia|left; assert (i / m < k - 1)%nat by lia; nia].
  - rewrite (filter_ext_in _ (fun i => ((h - 1) * m <=? i)%nat && (i <? length y)%nat)).
    + rewrite count_interval. lia.
    + intros i Hi. apply in_seq in Hi. pose proof (Nat.div_mod i m ltac:(lia)) as D. pose proof (Nat.mod_upper_bound i m ltac:(lia)) as D2.
      destruct (Nat.eqb h (S (Nat.min (h - 1) (i / m)))) eqn:Ek; symmetry.
      * apply Nat.eqb_eq in Ek. apply andb_true_iff. rewrite Nat.leb_le, Nat.ltb_lt. split; [|lia]. assert (h - 1 <= i / m)%nat by lia. nia.
      * apply Nat.eqb_neq in Ek. apply andb_false_iff. rewrite Nat.leb_gt, Nat.ltb_ge. left. assert (i / m < h - 1)%nat by lia. nia.
Qed.

Lemma discretize_few : forall (y : list R) h, (0 < length y < h)%nat -> (2 <= h)%nat -> discretize y h = Ok (repeat h (length y)).
Proof.
  intros y h Hn Hh. assert (Hy : y <> []) by (destruct y; [cbn in Hn; lia|congruence]).
  rewrite discretize_below by auto. f_equal. apply (list_ext _ _ 0%nat); [rewrite map_length, repeat_length; auto|].
  intros i Hi. rewrite map_length in Hi. rewrite (nth_map_lt _ _ _ 0) by auto. rewrite (nth_indep (repeat h _) 0%nat h) by (rewrite repeat_length; auto). rewrite nth_repeat.
  enough (below (cuts y h) (nth i y 0) = (h - 1)%nat) by lia.
  rewrite <- (cuts_length y h). apply Nat.le_antisymm; [apply below_le|].
  unfold below. rewrite (filter_ext_in _ (fun _ => true)).
  - clear. induction (cuts y h); cbn; lia.
  - intros a Ha. unfold leR. destruct (Rle_dec a (nth i y 0)) as [|E]; auto. exfalso. apply E.
    unfold cuts in Ha. apply in_map_iff in Ha as [j [<- Hj]]. rewrite Nat.div_small by lia. rewrite Nat.mul_0_r.
    assert (In (nth i y 0) (sort y)) as HI by (eapply Permutation_in; [apply sort_perm|apply nth_In; auto]).
    destruct (In_nth _ _ 0 HI) as [t [Ht <-]]. apply sorted_nth; [apply sort_sorted|lia].
Qed.

(** ** Increasing transformations of the response *)
From Verif Require Import S_Stats S_Sudire L_Stats.

Lemma increasing_le : forall f x y, increasing f -> x <= y -> f x <= f y.
Proof. intros f x y Hf [L|E]; [left; apply Hf; auto|subst; right; auto]. Qed.
Lemma increasing_leR : forall f a v, increasing f -> leR (f a) (f v) = leR a v.
Proof.
  intros f a v Hf. unfold leR. destruct (Rle_dec a v) as [E|E], (Rle_dec (f a) (f v)) as [E2|E2]; auto.
  - exfalso. apply E2, increasing_le; auto.
  - exfalso. assert (v < a) as L by lra. apply Hf in L. lra.
Qed.

Lemma sort_map_incr : forall f l, increasing f -> sort (map f l) = map f (sort l).
Proof.
  intros f l Hf. apply sorted_perm_unique.
  - apply sort_sorted.
  - apply map_sorted_incr; [intros; apply increasing_le; auto|apply sort_sorted].
  - eapply perm_trans; [apply Permutation_sym, sort_perm|apply Permutation_map, sort_perm].
Qed.

Lemma discretize_incr : forall f (y : list R) h, increasing f -> discretize (map f y) h = discretize y h.
Proof.
  intros f y h Hf. destruct (le_lt_dec 2 h) as [Hh|Hh].
  2: { destruct h as [|[|h]]; [reflexivity|reflexivity|lia]. }
  destruct y as [|y0 y']; [reflexivity|]. set (y := y0 :: y') in *.
  assert (Hy : y <> []) by (unfold y; congruence). assert (Hy' : map f y <> []) by (unfold y; cbn; congruence).
  rewrite !discretize_below by auto. f_equal. rewrite map_map. apply map_ext. intros v. f_equal.
  assert (Ec : cuts (map f y) h = map f (cuts y h)).
  { unfold cuts. rewrite map_map, map_length, sort_map_incr by auto. apply map_ext_in. intros i Hi. apply in_seq in Hi.
    rewrite (nth_indep _ 0 (f 0)); [apply map_nth|]. rewrite map_length, sort_len. apply cut_index; [unfold y; cbn; lia|lia|lia]. }
  unfold below. rewrite Ec, filter_map_len. f_equal. apply filter_ext. intros a. apply increasing_leR; auto.
Qed.

(** ** The labels of the slices *)
Definition neqR (a v : R) : bool := if Req_EM_T v a then false else true.
Lemma neqR_spec : forall a v, neqR a v = true <-> v <> a.
Proof. intros a v. unfold neqR. destruct (Req_EM_T v a); split; intros; auto; congruence. Qed.

Lemma filter_comm : forall {B} (p q : B -> bool) l, filter p (filter q l) = filter q (filter p l).
Proof. intros B p q l. induction l as [|a l IH]; [reflexivity|]. cbn. destruct (q a) eqn:Q, (p a) eqn:P; cbn; rewrite ?Q, ?P, IH; auto. Qed.

Lemma distinct_filter : forall a l, distinct (filter (neqR a) l) = filter (neqR a) (distinct l).
Proof.
  intros a l. induction l as [|b l IH]; [reflexivity|]. cbn [filter distinct]. fold (neqR b).
  destruct (neqR a b) eqn:E; cbn [distinct].
  - fold (neqR b). rewrite IH, filter_comm. reflexivity.
  - rewrite IH. unfold neqR in E. destruct (Req_EM_T b a) as [->|]; [|discriminate].
    symmetry. generalize (distinct l). induction l0 as [|c l0 I]; [reflexivity|]. cbn. fold (neqR a).
    destruct (neqR a c) eqn:C; cbn; rewrite ?C, I; auto.
Qed.

Lemma distinct_cons_filter : forall a l, distinct (a :: l) = a :: distinct (filter (neqR a) l).
Proof. intros. cbn [distinct]. fold (neqR a). rewrite distinct_filter. reflexivity. Qed.

Lemma distinct_in : forall l v, In v (distinct l) <-> In v l.
Proof.
  induction l as [|a l IH]; intros v; [reflexivity|]. cbn [distinct In]. fold (neqR a). rewrite filter_In, IH, neqR_spec.
  destruct (Req_EM_T v a); intuition.
Qed.
Lemma distinct_nodup : forall l, NoDup (distinct l).
Proof.
  induction l as [|a l IH]; cbn [distinct]; constructor.
  - fold (neqR a). rewrite filter_In, neqR_spec. intuition.
  - apply NoDup_filter; auto.
Qed.
Lemma distinct_length : forall l, (length (distinct l) <= length l)%nat.
Proof. induction l as [|a l IH]; cbn; [lia|]. etransitivity; [|apply le_n_S, IH]. apply le_n_S, filter_length_le. Qed.

Lemma vvar_zero_iff : forall (a : R) l, vvar (a :: l) = 0 <-> Forall (fun v => v = a) l.
Proof.
  intros a l. split.
  - intros E. apply vvar_zero_const in E. inversion E as [|? ? E1 E2]; subst. apply Forall_forall. intros v Hv.
    rewrite Forall_forall in E2. rewrite E1. auto.
  - intros F. assert (Fa : Forall (fun v => v = a) (a :: l)) by (constructor; auto). rewrite vvar_R.
    assert (M : vmean (a :: l) = a).
    { pose proof (vmean_bounds (a :: l) a a ltac:(congruence)) as B. rewrite Forall_forall in B. rewrite Forall_forall in Fa.
      assert (a <= vmean (a :: l) <= a); [|lra]. apply B. intros x Hx. rewrite (Fa x Hx). lra. }
    rewrite M, vmean_R. rewrite vsum_zero; [unfold Rdiv; rewrite Rmult_0_l; reflexivity|].
    intros x Hx. apply in_map_iff in Hx as [v [<- Hv]]. rewrite Forall_forall in Fa. rewrite (Fa v Hv). ring.
Qed.

Lemma slice_labels_distinct : forall (l : list R) fuel, l <> [] -> (length l <= S fuel)%nat -> slice_labels fuel l = Ok (distinct l).
Proof.
  intros l fuel. revert l. induction fuel as [|k IH]; intros [|a l] Hl Hf; try congruence.
  - destruct l; [reflexivity|cbn in Hf; lia].
  - assert (Hk : forall k, Forall (fun v => v = a) l -> slice_labels k (a :: l) = Ok [a]).
    { clear. intros k F. induction k as [|k IH]; [reflexivity|]. cbn [slice_labels]. rnum.
      rewrite (proj2 (Reqb_true _ _)); [exact IH|]. apply vvar_zero_iff; auto. }
    assert (Hd : Forall (fun v => v = a) l -> distinct (a :: l) = [a]).
    { intros F. rewrite distinct_cons_filter. replace (filter (neqR a) l) with (@nil R); [reflexivity|].
      clear - F. induction F as [|b l E F I]; [reflexivity|]. cbn. unfold neqR at 1. destruct (Req_EM_T b a); [auto|congruence]. }
    cbn [slice_labels]. rnum. destruct (Reqb (vvar (a :: l)) 0) eqn:E.
    + apply Reqb_true, vvar_zero_iff in E. rewrite Hk, Hd by auto. reflexivity.
    + apply Reqb_false in E. rewrite vvar_zero_iff in E.
      assert (EF : filter (fun v => negb (Reqb v a)) (a :: l) = filter (neqR a) l).
      { cbn [filter]. rewrite (proj2 (Reqb_true a a) eq_refl). cbn [negb]. apply filter_ext. intros v. unfold neqR, Reqb. destruct (Req_EM_T v a); reflexivity. }
      rewrite EF. rewrite IH.
      * rewrite distinct_cons_filter. reflexivity.
      * intros N. apply E. apply Forall_forall. intros v Hv. destruct (Req_EM_T v a) as [|Nv]; auto. exfalso.
        assert (In v (filter (neqR a) l)) as HI by (apply filter_In; split; auto; apply neqR_spec; auto). rewrite N in HI. destruct HI.
      * cbn [length] in Hf. pose proof (filter_length_le (neqR a) l). lia.
Qed.

(** ** Proportions *)
Lemma proportion_fraction : forall (ydis : list R) a, proportion (length ydis) ydis a = fraction ydis a.
Proof.
  intros ydis a. unfold proportion, fraction. rewrite !nnat_R. reflexivity.
Qed.

Definition isR (v a : R) : bool := if Req_EM_T v a then true else false.
Lemma isR_spec : forall v a, isR v a = true <-> v = a.
Proof. intros v a. unfold isR. destruct (Req_EM_T v a); split; intros; auto; congruence. Qed.
Definition nsum (l : list nat) : nat := fold_right Nat.add 0%nat l.
Lemma nsum_plus : forall {B} (f g : B -> nat) l, nsum (map (fun a => (f a + g a)%nat) l) = (nsum (map f l) + nsum (map g l))%nat.
Proof. intros B f g l. induction l as [|a l IH]; [reflexivity|]. cbn [map nsum fold_right]. fold (nsum (map (fun a => (f a + g a)%nat) l)). rewrite IH. unfold nsum. lia. Qed.
Lemma nsum_indicator : forall v ls, NoDup ls -> nsum (map (fun a => if isR v a then 1 else 0)%nat ls) = (if existsb (isR v) ls then 1 else 0)%nat.
Proof.
  intros v ls Hd. induction Hd as [|b ls N Hd IH]; [reflexivity|]. cbn [map nsum fold_right existsb]. fold (nsum (map (fun a => if isR v a then 1 else 0)%nat ls)). rewrite IH.
  destruct (isR v b) eqn:E; [|reflexivity]. apply isR_spec in E. subst v. destruct (existsb (isR b) ls) eqn:E2; [|reflexivity].
  apply existsb_exists in E2 as [a [Ha Ea]]. apply isR_spec in Ea. subst. contradiction.
Qed.
Lemma count_sum : forall (l ls : list R), NoDup ls ->
  nsum (map (fun a => length (filter (fun v => isR v a) l)) ls) = length (filter (fun v => existsb (isR v) ls) l).
Proof.
  intros l ls Hd. induction l as [|v l IH].
  - cbn. clear. induction ls; cbn; auto.
  - assert (E : nsum (map (fun a => length (filter (fun v => isR v a) (v :: l))) ls)
      = nsum (map (fun a => ((if isR v a then 1 else 0) + length (filter (fun v => isR v a) l))%nat) ls)).
    { f_equal. apply map_ext. intros a. cbn [filter]. destruct (isR v a); reflexivity. }
    rewrite E, nsum_plus, IH, nsum_indicator by auto. cbn [filter]. destruct (existsb (isR v) ls); reflexivity.
Qed.

Lemma sum_of_INR : forall l, sum_of (map INR l) = INR (nsum l).
Proof. induction l as [|a l IH]; [reflexivity|]. cbn [map sum_of fold_right nsum]. rewrite plus_INR. fold (sum_of (map INR l)). rewrite IH. reflexivity. Qed.

Lemma fractions_sum : forall (l ls : list R), NoDup ls ->
  sum_of (map (fraction l) ls) = INR (length (filter (fun v => existsb (fun a => if Req_EM_T v a then true else false) ls) l)) / INR (length l).
Proof.
  intros l ls Hd. rewrite <- count_sum by auto. rewrite <- sum_of_INR, map_map. unfold fraction.
  rewrite !sum_of_vsum. rewrite <- vsum_map_div. reflexivity.
Qed.

Lemma filter_all : forall {B} (q : B -> bool) l, (forall v, In v l -> q v = true) -> filter q l = l.
Proof. intros B q l Hq. induction l as [|a l IH]; [reflexivity|]. cbn. rewrite (Hq a (or_introl eq_refl)). f_equal. apply IH. intros; apply Hq; right; auto. Qed.
Lemma filter_not_all : forall {B} (q : B -> bool) l v, In v l -> q v = false -> (length (filter q l) < length l)%nat.
Proof.
  intros B q l v Hv Hq. induction l as [|a l IH]; [destruct Hv|]. cbn. destruct Hv as [->|Hv].
  - rewrite Hq. pose proof (filter_length_le q l). lia.
  - specialize (IH Hv). destruct (q a); cbn; lia.
Qed.

Lemma fractions_all : forall (l ls : list R), l <> [] -> NoDup ls -> (forall v, In v l -> In v ls) -> sum_of (map (fraction l) ls) = 1.
Proof.
  intros l ls Hl Hd Hc. rewrite fractions_sum by auto. rewrite filter_all.
  - field. apply INR_len_neq0; auto.
  - intros v Hv. apply existsb_exists. exists v. split; auto. destruct (Req_EM_T v v); congruence.
Qed.
Lemma fractions_some : forall (l ls : list R) v, NoDup ls -> In v l -> ~ In v ls -> sum_of (map (fraction l) ls) < 1.
Proof.
  intros l ls v Hd Hv Hn. rewrite fractions_sum by auto.
  assert (Hl : l <> []) by (intros ->; destruct Hv). pose proof (INR_len_pos l Hl) as Hp.
  apply (Rmult_lt_reg_r (INR (length l))); [auto|]. unfold Rdiv. rewrite Rmult_assoc, Rinv_l, Rmult_1_r, Rmult_1_l by lra.
  apply lt_INR. eapply filter_not_all; [exact Hv|]. apply not_true_is_false. intros E. apply existsb_exists in E as [a [Ha Ea]].
  destruct (Req_EM_T v a); [subst; contradiction|discriminate].
Qed.
