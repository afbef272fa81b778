(** The leading eigenvectors. *)

From Coq Require Import Reals List Arith ZArith Bool Lra Lia Permutation Sorted.
Import ListNotations.
From Verif Require Import Num Err Vec VecR S_Stats L_Mat L_Lin L_Matmul L_Stats M_SdrUtils S_Sudire L_SdrMat.
Open Scope R_scope.

(** ** argsort *)
Definition leP (a b : R * nat) : Prop := fst a <= fst b.
Lemma insert_ix_perm : forall (a : R * nat) l, Permutation (a :: l) (insert_ix a l).
Proof.
  intros a l. induction l as [|b l IH]; cbn; [auto|]. rnum. destruct (Rleb (fst a) (fst b)); [auto|].
  apply perm_trans with (b :: a :: l); [apply perm_swap|]. constructor; exact IH.
Qed.
Lemma insert_ix_sorted : forall (a : R * nat) l, StronglySorted leP l -> StronglySorted leP (insert_ix a l).
Proof.
  intros a l Hs. induction Hs as [|b l Hs IH Hb]; cbn; [constructor; constructor|].
  rnum. destruct (Rleb (fst a) (fst b)) eqn:E; rcmp_all.
  - constructor; [constructor; auto|]. constructor; [exact E|]. eapply Forall_impl; [|exact Hb]. intros z Hz. unfold leP in *. lra.
  - constructor; auto. apply Forall_forall. intros z Hz. apply (Permutation_in z (Permutation_sym (insert_ix_perm a l))) in Hz.
    rewrite Forall_forall in Hb. destruct Hz as [<-|Hz]; [unfold leP; lra|auto].
Qed.
Definition sorted_pairs (v : list R) : list (R * nat) := fold_right insert_ix [] (combine v (seq 0 (length v))).
Lemma sorted_pairs_perm : forall v, Permutation (combine v (seq 0 (length v))) (sorted_pairs v).
Proof.
  intros v. unfold sorted_pairs. induction (combine v (seq 0 (length v))) as [|a l IH]; cbn; [auto|].
  eapply perm_trans; [|apply insert_ix_perm]. constructor; exact IH.
Qed.
Lemma sorted_pairs_sorted : forall v, StronglySorted leP (sorted_pairs v).
Proof. intros v. unfold sorted_pairs. induction (combine v (seq 0 (length v))) as [|a l IH]; cbn; [constructor|apply insert_ix_sorted; auto]. Qed.
Lemma combine_seq : forall (v : list R) s a, In a (combine v (seq s (length v))) -> (s <= snd a < s + length v)%nat /\ fst a = nth (snd a - s) v 0.
Proof.
  induction v as [|x v IH]; intros s a Ha; [destruct Ha|]. cbn in Ha. destruct Ha as [<-|Ha].
  - cbn. split; [lia|]. replace (s - s)%nat with 0%nat by lia. reflexivity.
  - apply IH in Ha as [H1 H2]. cbn [length]. split; [lia|]. rewrite H2. replace (snd a - s)%nat with (Datatypes.S (snd a - Datatypes.S s)) by lia. reflexivity.
Qed.
Lemma argsort_perm : forall v : list R, Permutation (seq 0 (length v)) (argsort v).
Proof.
  intros v. unfold argsort. fold (sorted_pairs v). eapply perm_trans; [|apply Permutation_map, sorted_pairs_perm].
  replace (map snd (combine v (seq 0 (length v)))) with (seq 0 (length v)); [auto|].
  generalize 0%nat. induction v as [|x v IH]; intros s; cbn; [auto|]. f_equal. apply IH.
Qed.
Lemma argsort_length : forall v : list R, length (argsort v) = length v.
Proof. intros v. rewrite <- (Permutation_length (argsort_perm v)). apply seq_length. Qed.
Lemma argsort_sorted : forall (v : list R) i j, (i <= j < length v)%nat -> nth (nth i (argsort v) 0%nat) v 0 <= nth (nth j (argsort v) 0%nat) v 0.
Proof.
  intros v i j Hij. unfold argsort. fold (sorted_pairs v).
  assert (L : length (sorted_pairs v) = length v) by (rewrite <- (Permutation_length (sorted_pairs_perm v)), combine_length, seq_length; lia).
  pose proof (sorted_pairs_sorted v) as Hs.
  assert (Hv : forall k, (k < length v)%nat -> nth (nth k (map snd (sorted_pairs v)) 0%nat) v 0 = fst (nth k (sorted_pairs v) (0, 0%nat))).
  { intros k Hk. change 0%nat with (snd (0, 0%nat)) at 1. rewrite map_nth.
    assert (HI : In (nth k (sorted_pairs v) (0, 0%nat)) (combine v (seq 0 (length v)))).
    { eapply Permutation_in; [apply Permutation_sym, sorted_pairs_perm|apply nth_In; lia]. }
    apply combine_seq in HI as [_ HI]. rewrite Nat.sub_0_r in HI. auto. }
  rewrite !Hv by lia. clear Hv. revert i j Hij. rewrite <- L. clear L. generalize (sorted_pairs v) Hs. clear.
  intros l Hs. induction Hs as [|b l Hs IH Hb]; intros i j Hij; [cbn in Hij; lia|].
  rewrite Forall_forall in Hb. destruct i, j; cbn in *; try lia; try lra.
  - apply (Hb (nth j l (0, 0%nat))). apply nth_In; lia.
  - apply IH; lia.
Qed.

(** descending *)
Definition order (v : list R) (d : nat) : list nat := firstn d (rev (argsort v)).
Lemma order_length : forall v d, length (order v d) = Nat.min d (length v).
Proof. intros. unfold order. rewrite firstn_length, rev_length, argsort_length. reflexivity. Qed.
Lemma nth_order : forall v d c, (c < Nat.min d (length v))%nat -> nth c (order v d) 0%nat = nth (length v - 1 - c) (argsort v) 0%nat.
Proof.
  intros v d c Hc. unfold order.
  assert (E : nth c (firstn d (rev (argsort v))) 0%nat = nth c (rev (argsort v)) 0%nat).
  { rewrite <- (firstn_skipn d (rev (argsort v))) at 2. rewrite app_nth1; auto. rewrite firstn_length, rev_length, argsort_length. lia. }
  rewrite E, rev_nth by (rewrite argsort_length; lia). rewrite argsort_length. f_equal. lia.
Qed.
Lemma argsort_lt : forall (v : list R) i, (i < length v)%nat -> (nth i (argsort v) 0 < length v)%nat.
Proof.
  intros v i Hi. assert (In (nth i (argsort v) 0%nat) (seq 0 (length v))) as HI.
  { eapply Permutation_in; [apply Permutation_sym, argsort_perm|apply nth_In; rewrite argsort_length; auto]. }
  apply in_seq in HI. lia.
Qed.
Lemma argsort_nodup : forall v : list R, NoDup (argsort v).
Proof. intros v. eapply Permutation_NoDup; [apply argsort_perm|apply seq_NoDup]. Qed.
(** an index that is not among the first c in descending order has a value not exceeding the c-th *)
Lemma order_rest : forall (v : list R) d c b, (c < Nat.min d (length v))%nat -> (b < length v)%nat ->
  (forall i, (i < c)%nat -> nth i (order v d) 0%nat <> b) -> nth b v 0 <= nth (nth c (order v d) 0%nat) v 0.
Proof.
  intros v d c b Hc Hb Hn. rewrite nth_order by auto.
  assert (HI : In b (argsort v)) by (eapply Permutation_in; [apply argsort_perm|apply in_seq; lia]).
  destruct (In_nth _ _ 0%nat HI) as [t [Ht Eb]]. rewrite argsort_length in Ht. rewrite <- Eb. apply argsort_sorted. split; [|lia].
  destruct (le_lt_dec t (length v - 1 - c)) as [L|L]; auto. exfalso.
  apply (Hn (length v - 1 - t)%nat); [lia|]. rewrite nth_order by lia. rewrite <- Eb. f_equal. lia.
Qed.

(** ** Spectral facts *)
Section Spectral.
  Variables (p : nat) (m : nat -> nat -> R) (vals : list R) (w : nat -> nat -> R).
  Hypothesis Hcols : forall i j, (i < p)%nat -> (j < p)%nat -> sumn p (fun a => w a i * w a j) = delta i j.
  Hypothesis Hrows : forall i j, (i < p)%nat -> (j < p)%nat -> sumn p (fun a => w i a * w j a) = delta i j.
  Hypothesis Heig : forall i j, (i < p)%nat -> (j < p)%nat -> sumn p (fun a => m i a * w a j) = nth j vals 0 * w i j.

  Lemma sumn_delta_r : forall n j (f : nat -> R), (j < n)%nat -> sumn n (fun a => f a * delta a j) = f j.
  Proof.
    intros n j f Hj. rewrite (sumn_ext n _ (fun a => if Nat.eqb a j then f a else 0)).
    - apply sumn_delta; auto.
    - intros a _. unfold delta. destruct (a =? j)%nat; ring.
  Qed.
  Lemma sumn_delta_l : forall n j (f : nat -> R), (j < n)%nat -> sumn n (fun a => delta j a * f a) = f j.
  Proof.
    intros n j f Hj. rewrite (sumn_ext n _ (fun a => f a * delta a j)); [apply sumn_delta_r; auto|].
    intros a _. unfold delta. rewrite Nat.eqb_sym. ring.
  Qed.

  (** m = w diag(vals) w' *)
  Lemma spectral : forall i j, (i < p)%nat -> (j < p)%nat -> m i j = sumn p (fun b => nth b vals 0 * w i b * w j b).
  Proof.
    intros i j Hi Hj. rewrite (sumn_ext p _ (fun b => sumn p (fun a => m i a * w a b) * w j b)) by (intros b Hb; rewrite Heig by auto; reflexivity).
    rewrite (sumn_ext p _ (fun b => sumn p (fun a => m i a * w a b * w j b))) by (intros b Hb; rewrite sumn_scal_r; reflexivity).
    rewrite sumn_exchange. rewrite (sumn_ext p _ (fun a => m i a * delta a j)).
    - rewrite sumn_delta_r by auto. reflexivity.
    - intros a Ha. rewrite <- (Hrows a j) by auto. rewrite <- sumn_scal. apply sumn_ext. intros b Hb. ring.
  Qed.
  Lemma quad_spectral : forall v : nat -> R, sumn p (fun i => sumn p (fun j => v i * m i j * v j)) = sumn p (fun b => nth b vals 0 * (sumn p (fun a => w a b * v a)) ^ 2).
  Proof.
    intros v.
    transitivity (sumn p (fun i => sumn p (fun j => sumn p (fun b => nth b vals 0 * ((w i b * v i) * (w j b * v j)))))).
    - apply sumn_ext. intros i Hi. apply sumn_ext. intros j Hj. rewrite spectral by auto. rewrite <- sumn_scal, <- sumn_scal_r. apply sumn_ext. intros; ring.
    - transitivity (sumn p (fun i => sumn p (fun b => sumn p (fun j => nth b vals 0 * ((w i b * v i) * (w j b * v j)))))); [apply sumn_ext; intros; apply sumn_exchange|].
      rewrite sumn_exchange. apply sumn_ext. intros b Hb.
      rewrite (sumn_ext p _ (fun i => nth b vals 0 * sumn p (fun j => (w i b * v i) * (w j b * v j)))) by (intros; apply sumn_scal).
      rewrite sumn_scal. f_equal. rewrite <- Rsqr_pow2. unfold Rsqr. apply (sumn_square p (fun i => w i b * v i)).
  Qed.
  Lemma parseval : forall v : nat -> R, sumn p (fun b => (sumn p (fun a => w a b * v a)) ^ 2) = sumn p (fun a => v a ^ 2).
  Proof.
    intros v.
    transitivity (sumn p (fun b => sumn p (fun i => sumn p (fun j => (w i b * v i) * (w j b * v j))))).
    - apply sumn_ext. intros b _. rewrite <- Rsqr_pow2. unfold Rsqr. symmetry. apply (sumn_square p (fun i => w i b * v i)).
    - rewrite sumn_exchange. apply sumn_ext. intros i Hi. rewrite sumn_exchange.
      rewrite (sumn_ext p _ (fun j => (v i * v j) * delta j i)).
      + rewrite sumn_delta_r by auto. ring.
      + intros j Hj. rewrite <- (Hrows j i) by auto. rewrite <- sumn_scal. apply sumn_ext. intros b _. ring.
  Qed.
  Lemma quad_at_vector : forall c, (c < p)%nat -> sumn p (fun i => sumn p (fun j => w i c * m i j * w j c)) = nth c vals 0.
  Proof.
    intros c Hc. rewrite (quad_spectral (fun a => w a c)).
    rewrite (sumn_ext p _ (fun b => nth b vals 0 * delta b c)).
    - apply sumn_delta_r; auto.
    - intros b Hb. rewrite Hcols by auto. unfold delta. destruct (b =? c)%nat; ring.
  Qed.
End Spectral.

Lemma rep_take_cols : forall n p X f (idx : list nat), rep n p X f -> (forall j, In j idx -> (j < p)%nat) ->
  rep n (length idx) (take_cols idx X) (fun i c => f i (nth c idx 0%nat)).
Proof.
  intros n p X f idx [W E] Hidx. split.
  - split; [unfold take_cols; rewrite map_length; apply (wf_length _ _ _ W)|]. apply Forall_forall. intros r Hr.
    apply in_map_iff in Hr as [r' [<- _]]. apply map_length.
  - intros i c Hi Hc. unfold mget, take_cols. rewrite (nth_map_lt _ _ _ []) by (rewrite (wf_length _ _ _ W); auto).
    rewrite (nth_map_lt _ _ _ 0%nat) by auto. rewrite <- E; auto. apply Hidx, nth_In; auto.
Qed.

Lemma inner_sumn : forall p (v : list R) X d c, wf p d X -> length v = p -> (c < d)%nat -> inner v (column c X) = sumn p (fun a => nth a v 0 * mget X a c).
Proof.
  intros p v X d c W Hv Hc. rewrite inner_dot. rewrite (dot_sumn _ _ p); auto; [|unfold column; rewrite map_length; apply (wf_length _ _ _ W)].
  apply sumn_ext. intros a Ha. rewrite column_col. f_equal. exact (nth_col X a c).
Qed.
Lemma nth_column : forall (X : list (list R)) c a, nth a (column c X) 0 = mget X a c.
Proof. intros X c a. exact (nth_col X a c). Qed.
Lemma sqlen_sumn : forall p (v : list R), length v = p -> sqlen v = sumn p (fun a => nth a v 0 ^ 2).
Proof.
  intros p v Hv. rewrite sqlen_dot, (dot_sumn _ _ p) by auto. apply sumn_ext. intros. ring.
Qed.

Lemma leading_spec : forall eigh p M f d B, eigh_ok eigh -> (0 < p)%nat -> rep p p M f -> (forall i j, f i j = f j i) ->
  leading eigh M d = Ok B -> leading_eigenvectors p M (Nat.min d p) B.
Proof.
  intros eigh p M f d B He Hp HM Hsym E. unfold leading in E. destruct (eigh M) as [[vals V]|e] eqn:EM; [|discriminate].
  cbn [bind] in E. apply Ok_inj in E. subst B. fold (order vals d).
  assert (HS : symmetric p M). { intros i j Hi Hj. destruct HM as [_ EE]. rewrite !cell_mget, !EE by auto. auto. }
  destruct (He p M vals V Hp (proj1 HM) HS EM) as [Lv [[WV HO] HE]].
  set (w := mget V). set (m := mget M).
  assert (Hcols : forall i j, (i < p)%nat -> (j < p)%nat -> sumn p (fun a => w a i * w a j) = delta i j) by (intros; apply HO; auto).
  assert (Hrows : forall i j, (i < p)%nat -> (j < p)%nat -> sumn p (fun a => w i a * w j a) = delta i j) by (intros; apply HO; auto).
  assert (Heig : forall i j, (i < p)%nat -> (j < p)%nat -> sumn p (fun a => m i a * w a j) = nth j vals 0 * w i j) by (intros; apply HE; auto).
  set (pi := fun c => nth c (order vals d) 0%nat).
  assert (Lo : length (order vals d) = Nat.min d p) by (rewrite order_length, Lv; auto).
  assert (Hpi : forall c, (c < Nat.min d p)%nat -> (pi c < p)%nat).
  { intros c Hc. unfold pi. rewrite nth_order by (rewrite Lv; auto). rewrite <- Lv. apply argsort_lt. lia. }
  assert (Hinj : forall c c', (c < Nat.min d p)%nat -> (c' < Nat.min d p)%nat -> pi c = pi c' -> c = c').
  { intros c c' Hc Hc'. unfold pi. rewrite !nth_order by (rewrite Lv; auto). intros Eq. 
    apply (proj1 (NoDup_nth (argsort vals) 0%nat) (argsort_nodup vals)) in Eq; rewrite ?argsort_length; lia. }
  assert (RB : rep p (Nat.min d p) (take_cols (order vals d) V) (fun i c => w i (pi c))).
  { rewrite <- Lo. apply (rep_take_cols p p V w); [apply rep_self; exact WV|].
    intros j Hj. destruct (In_nth _ _ 0%nat Hj) as [t [Ht <-]]. rewrite Lo in Ht. apply Hpi; auto. }
  set (B := take_cols (order vals d) V) in *.
  assert (HQ : forall c, (c < Nat.min d p)%nat -> quad_form p M (column c B) = nth (pi c) vals 0).
  { intros c Hc. rewrite (quad_form_sumn p M m) by (apply rep_self; apply HM).
    rewrite <- (quad_at_vector p m vals w Hcols Hrows Heig (pi c)) by auto.
    apply sumn_ext. intros i Hi. apply sumn_ext. intros j Hj. rewrite !nth_column. rewrite !(proj2 RB) by auto. reflexivity. }
  split; [apply RB|]. split; [|split].
  - intros i j Hi Hj. change sum_to with sumn. rewrite (sumn_ext p _ (fun a => w a (pi i) * w a (pi j))).
    + rewrite Hcols by auto. unfold delta. destruct (pi i =? pi j)%nat eqn:Q.
      * apply Nat.eqb_eq in Q. apply Hinj in Q; auto. subst. rewrite Nat.eqb_refl. auto.
      * apply Nat.eqb_neq in Q. destruct (i =? j)%nat eqn:Q2; auto. apply Nat.eqb_eq in Q2. subst. congruence.
    + intros a Ha. change cell with (mget (A := R)). rewrite !(proj2 RB) by auto. reflexivity.
  - intros i c Hi Hc. rewrite HQ by auto. change sum_to with sumn. change cell with (mget (A := R)). rewrite (proj2 RB) by auto.
    rewrite <- Heig by auto. apply sumn_ext. intros a Ha. rewrite (proj2 RB) by auto. reflexivity.
  - intros c v Hc Hv Hperp. rewrite HQ by auto. rewrite (quad_form_sumn p M m) by (apply rep_self; apply HM).
    rewrite (quad_spectral p m vals w Hrows Heig (fun a => nth a v 0)). rewrite (sqlen_sumn p) by auto.
    rewrite <- (parseval p w Hrows (fun a => nth a v 0)). rewrite <- sumn_scal. apply sumn_le. intros b Hb. cbn beta.
    set (t := sumn p (fun a => w a b * nth a v 0)).
    assert (0 <= t ^ 2) by (rewrite <- Rsqr_pow2; apply Rle_0_sqr).
    destruct (in_dec Nat.eq_dec b (map pi (seq 0 c))) as [Hin|Hn].
    + apply in_map_iff in Hin as [i [Eb Hi]]. apply in_seq in Hi. assert (Z : t = 0).
      { unfold t. transitivity (inner v (column i B)); [|apply Hperp; lia]. rewrite (inner_sumn p v B (Nat.min d p)) by (auto; try apply RB; lia).
        apply sumn_ext. intros a Ha. rewrite (proj2 RB) by (auto; lia). rewrite Eb. rnum. apply Rmult_comm. }
      rewrite Z. lra.
    + apply Rmult_le_compat_r; auto. unfold pi. apply order_rest; rewrite ?Lv; auto.
      intros i Hi Eb. apply Hn. apply in_map_iff. exists i. split; auto. apply in_seq. lia.
Qed.
