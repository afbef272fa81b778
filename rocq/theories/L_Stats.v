(** The statistics of the model (over R) are those of the specification. *)

From Coq Require Import Reals List Arith ZArith Bool Lia Lra Permutation Sorted.
Import ListNotations.
From Verif Require Import Num Err Vec VecR OrdR L_Mat S_Stats.
Open Scope R_scope.

Lemma sum_of_vsum : forall l : list R, sum_of l = vsum l. Proof. reflexivity. Qed.
Lemma mean_of_vmean : forall l : list R, mean_of l = vmean l.
Proof. intros; rewrite vmean_R; reflexivity. Qed.
Lemma variance_of_vvar : forall l : list R, variance_of l = vvar l.
Proof.
  intros l; unfold variance_of. rewrite vvar_R, mean_of_vmean. f_equal. apply map_ext.
  intros x; rewrite mean_of_vmean; ring.
Qed.
Lemma inner_dot : forall u v : list R, inner u v = dot u v.
Proof.
  intros u; induction u as [|x u IH]; intros [|y v]; try reflexivity.
  unfold inner in *. cbn [combine map]. cbn [sum_of fold_right fst snd].
  change (x * y + sum_of (map (fun xy => fst xy * snd xy) (combine u v)) = dot (x :: u) (y :: v)).
  rewrite IH, dot_cons; reflexivity.
Qed.
Lemma sqlen_dot : forall u, sqlen u = dot u u.
Proof. intros; apply inner_dot. Qed.

Lemma is_matrix_wf : forall n p X, is_matrix n p X <-> wf n p X.
Proof. intros; reflexivity. Qed.
Lemma cell_mget : forall X i j, cell X i j = mget X i j. Proof. reflexivity. Qed.
Lemma column_col : forall j (X : list (list R)), column j X = col j X. Proof. reflexivity. Qed.

Lemma even_mid : forall n, Nat.even n = true -> (0 < n)%nat -> ((n - 1) / 2 = n / 2 - 1)%nat.
Proof.
  intros n He Hn. apply even_half in He. set (k := (n / 2)%nat) in *.
  symmetry. apply (Nat.div_unique _ _ _ 1); lia.
Qed.
Lemma odd_mid : forall n, Nat.even n = false -> ((n - 1) / 2 = n / 2)%nat.
Proof.
  intros n Ho. apply odd_half in Ho. set (k := (n / 2)%nat) in *.
  symmetry. apply (Nat.div_unique _ _ _ 0); lia.
Qed.

Lemma vmedian_mid : forall l : list R, l <> [] ->
  vmedian l = (nth ((length l - 1) / 2) (sort l) 0 + nth (length l / 2) (sort l) 0) / 2.
Proof.
  intros l Hl. rewrite vmedian_R by exact Hl.
  assert (0 < length l)%nat by (destruct l; [congruence|cbn; lia]).
  destruct (Nat.even (length l)) eqn:E.
  - rewrite even_mid by auto. reflexivity.
  - rewrite odd_mid by auto. lra.
Qed.

Lemma is_median_vmedian : forall l : list R, l <> [] -> is_median l (vmedian l).
Proof.
  intros l Hl. exists (sort l). repeat split; auto using sort_perm, sort_sorted.
  apply vmedian_mid, Hl.
Qed.
Lemma is_median_unique : forall l m, is_median l m -> m = vmedian l.
Proof.
  intros l m [s [Hp [Hs [Hl ->]]]]. rewrite vmedian_mid by exact Hl.
  replace s with (sort l); auto. apply sorted_perm_unique; auto using sort_sorted.
  eapply perm_trans; [apply Permutation_sym, sort_perm|exact Hp].
Qed.
Lemma is_median_iff : forall l m, l <> [] -> (is_median l m <-> m = vmedian l).
Proof. intros l m Hl; split; [apply is_median_unique|intros ->; apply is_median_vmedian, Hl]. Qed.

Lemma is_mad_vmad : forall c (l : list R), l <> [] ->
  is_mad c l (vmedian (map (fun x => Rabs (x - vmedian l)) l) / c).
Proof.
  intros c l Hl. exists (vmedian l), (vmedian (map (fun x => Rabs (x - vmedian l)) l)).
  split; [apply is_median_vmedian, Hl|]. split; [|reflexivity].
  apply is_median_vmedian. destruct l; [congruence|discriminate].
Qed.
Lemma is_mad_unique : forall c (l : list R) d, is_mad c l d ->
  d = vmedian (map (fun x => Rabs (x - vmedian l)) l) / c.
Proof.
  intros c l d [m [e [Hm [He ->]]]]. apply is_median_unique in Hm. subst m.
  apply is_median_unique in He. subst e. reflexivity.
Qed.

(** trimmed means *)
Definition tcut (t : R) (n : nat) : nat := Z.to_nat (Int_part (t * INR n)).

Lemma trim_mean1_R : forall t (l : list R),
  trim_mean1 t l =
  if (length l <? 2 * tcut t (length l))%nat then Err ValueError
  else Ok (vmean (firstn (length l - 2 * tcut t (length l)) (skipn (tcut t (length l)) (sort l)))).
Proof.
  intros t l. unfold trim_mean1. rewrite nnat_R. rnum. fold (tcut t (length l)).
  set (g := tcut t (length l)).
  destruct (Z.ltb_spec (Z.of_nat (length l) - Z.of_nat g) (Z.of_nat g));
  destruct (Nat.ltb_spec (length l) (2 * g)); try lia; auto.
  f_equal. f_equal. f_equal. lia.
Qed.

Lemma is_trimmed_mean_model : forall t (l : list R) m, trim_mean1 t l = Ok m ->
  is_trimmed_mean (tcut t (length l)) l m.
Proof.
  intros t l m. rewrite trim_mean1_R. destruct (_ <? _)%nat; [discriminate|]. intros E; injection E as <-.
  exists (sort l). split; [apply sort_perm|]. split; [apply sort_sorted|]. rewrite mean_of_vmean; reflexivity.
Qed.

Lemma trim_slice_perm : forall t (l l' : list R), Permutation l l' -> trim_mean1 t l = trim_mean1 t l'.
Proof.
  intros t l l' Hp. rewrite !trim_mean1_R, (Permutation_length Hp), (sort_permutation _ _ Hp). reflexivity.
Qed.

Lemma firstn_rev_mid : forall (s : list R) g, (2 * g <= length s)%nat ->
  firstn (length s - 2 * g) (skipn g (rev s)) = rev (firstn (length s - 2 * g) (skipn g s)).
Proof.
  intros s g Hg. rewrite skipn_rev, firstn_rev. f_equal.
  rewrite firstn_length, firstn_skipn_comm, Nat.min_l by lia.
  replace (length s - g - (length s - 2 * g))%nat with g by lia.
  replace (g + (length s - 2 * g))%nat with (length s - g)%nat by lia. reflexivity.
Qed.

Lemma trim_mean1_affine : forall t a b (l : list R), (2 * tcut t (length l) < length l)%nat ->
  exists m, trim_mean1 t l = Ok m /\ trim_mean1 t (map (fun x => a * x + b) l) = Ok (a * m + b).
Proof.
  intros t a b l Hg. rewrite !trim_mean1_R, map_length.
  destruct (Nat.ltb_spec (length l) (2 * tcut t (length l))); [lia|].
  set (g := tcut t (length l)) in *. eexists; split; [reflexivity|]. f_equal.
  assert (Hne : forall s : list R, length s = length l -> firstn (length l - 2 * g) (skipn g s) <> []).
  { intros s Hs Hc. apply (f_equal (@length R)) in Hc. rewrite firstn_length, skipn_length, Hs in Hc. cbn in Hc. lia. }
  destruct (Rle_dec 0 a) as [Ha|Ha].
  - rewrite sort_map_incr by (intros; nra). rewrite skipn_map, firstn_map.
    apply vmean_affine, Hne, sort_length.
  - rewrite sort_map_decr by (intros; nra).
    replace (length l) with (length (map (fun x : R => a * x + b) (sort l))) at 1
      by (rewrite map_length, sort_length; reflexivity).
    rewrite firstn_rev_mid by (rewrite map_length, sort_length; lia).
    rewrite map_length, sort_length.
    rewrite (vmean_perm _ _ (Permutation_sym (Permutation_rev _))).
    rewrite skipn_map, firstn_map. apply vmean_affine, Hne, sort_length.
Qed.
