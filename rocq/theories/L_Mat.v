(** Structural lemmas on matrices (lists of rows), for every [Num]. *)

From Coq Require Import List Arith ZArith Bool Lia Permutation.
Import ListNotations.
From Verif Require Import Num Err Vec VecR.

Section Mat.
  Context {A : Type} `{Num A}.

  Lemma wf_length : forall n p (X : mat A), wf n p X -> length X = n.
  Proof. intros n p X [Hl _]; exact Hl. Qed.

  Lemma wf_row : forall n p (X : mat A) r, wf n p X -> In r X -> length r = p.
  Proof. intros n p X r [_ HF] Hr; rewrite Forall_forall in HF; auto. Qed.

  Lemma wf_nth_row : forall n p (X : mat A) i, wf n p X -> (i < n)%nat -> length (nth i X []) = p.
  Proof. intros n p X i Hwf Hi; eapply wf_row; eauto. apply nth_In. rewrite (wf_length _ _ _ Hwf); exact Hi. Qed.

  Lemma wf_ncols : forall n p (X : mat A), wf n p X -> (0 < n)%nat -> ncols X = p.
  Proof.
    intros n p [|r X] [Hl HF] Hn; cbn in Hl; [lia|].
    unfold ncols; cbn. inversion HF; auto.
  Qed.

  Lemma col_length : forall j (X : mat A), length (col j X) = length X.
  Proof. intros; apply map_length. Qed.

  Lemma cols_length : forall (X : mat A), length (cols X) = ncols X.
  Proof. intros; unfold cols; rewrite map_length, seq_length; reflexivity. Qed.

  Lemma nth_cols : forall (X : mat A) j d, (j < ncols X)%nat -> nth j (cols X) d = col j X.
  Proof.
    intros X j d Hj; unfold cols. rewrite (nth_map_lt _ _ _ 0%nat) by (rewrite seq_length; exact Hj).
    rewrite seq_nth by exact Hj. reflexivity.
  Qed.

  Lemma nth_col : forall (X : mat A) i j, nth i (col j X) n0 = mget X i j.
  Proof.
    intros X i j; unfold col, mget. revert i; induction X as [|r X IH]; intros [|i]; cbn; auto;
    destruct j; reflexivity.
  Qed.

  Lemma wf_cols : forall n p (X : mat A), wf n p X -> (0 < n)%nat -> wf p n (cols X).
  Proof.
    intros n p X Hwf Hn; split.
    - rewrite cols_length; eapply wf_ncols; eauto.
    - apply Forall_forall. intros c Hc. unfold cols in Hc. apply in_map_iff in Hc as [j [<- _]].
      rewrite col_length; eapply wf_length; eauto.
  Qed.

  Lemma in_cols : forall (X : mat A) c, In c (cols X) -> exists j, (j < ncols X)%nat /\ c = col j X.
  Proof.
    intros X c Hc. unfold cols in Hc. apply in_map_iff in Hc as [j [<- Hj]]. apply in_seq in Hj.
    exists j; split; [lia|reflexivity].
  Qed.

  Lemma map_cols_nth : forall {B} (f : vec A -> B) (X : mat A) j d, (j < ncols X)%nat ->
    nth j (map f (cols X)) d = f (col j X).
  Proof.
    intros B f X j d Hj. rewrite (nth_map_lt f (cols X) j []) by (rewrite cols_length; exact Hj).
    rewrite nth_cols by exact Hj. reflexivity.
  Qed.

  Lemma mget_cols : forall n p (X : mat A) i j, wf n p X -> (i < n)%nat -> (j < p)%nat ->
    mget (cols X) j i = mget X i j.
  Proof.
    intros n p X i j Hwf Hi Hj. unfold mget at 1. rewrite nth_cols by (rewrite (wf_ncols n p X); auto; lia).
    apply nth_col.
  Qed.

  Lemma mat_ext : forall n p (X Y : mat A), wf n p X -> wf n p Y ->
    (forall i j, (i < n)%nat -> (j < p)%nat -> mget X i j = mget Y i j) -> X = Y.
  Proof.
    intros n p X Y HX HY He. apply (list_ext _ _ []).
    - rewrite (wf_length _ _ _ HX), (wf_length _ _ _ HY); reflexivity.
    - intros i Hi. rewrite (wf_length _ _ _ HX) in Hi. apply (list_ext _ _ n0).
      + rewrite (wf_nth_row _ _ _ _ HX Hi), (wf_nth_row _ _ _ _ HY Hi); reflexivity.
      + intros j Hj. rewrite (wf_nth_row _ _ _ _ HX Hi) in Hj. apply He; assumption.
  Qed.

  Lemma transpose_involutive : forall n p (X : mat A), wf n p X -> (0 < n)%nat -> (0 < p)%nat ->
    transpose (transpose X) = X.
  Proof.
    intros n p X Hwf Hn Hp. unfold transpose.
    apply (mat_ext n p); auto.
    - apply wf_cols; auto. apply wf_cols; auto.
    - intros i j Hi Hj. rewrite (mget_cols p n) by (auto using wf_cols). apply (mget_cols n p); auto.
  Qed.

  (** columns after an operation on each row with a vector *)
  Lemma wf_map_rows : forall n p q (f : vec A -> vec A) (X : mat A), wf n p X ->
    (forall r, length r = p -> length (f r) = q) -> wf n q (map f X).
  Proof.
    intros n p q f X [Hl HF] Hf; split; [rewrite map_length; exact Hl|].
    apply Forall_forall. intros r Hr. apply in_map_iff in Hr as [r0 [<- Hr0]].
    apply Hf. rewrite Forall_forall in HF; auto.
  Qed.

  Lemma mget_map_rows : forall n p (f : vec A -> vec A) (X : mat A) i j, wf n p X -> (i < n)%nat ->
    mget (map f X) i j = nth j (f (nth i X [])) n0.
  Proof.
    intros n p f X i j Hwf Hi. unfold mget.
    rewrite (nth_map_lt f X i []) by (rewrite (wf_length _ _ _ Hwf); exact Hi). reflexivity.
  Qed.

  Lemma wf_mapmap : forall n p (f : A -> A) (X : mat A), wf n p X -> wf n p (map (map f) X).
  Proof. intros; eapply wf_map_rows; eauto. intros; rewrite map_length; auto. Qed.

  Lemma mget_mapmap : forall n p (f : A -> A) (X : mat A) i j, wf n p X -> (i < n)%nat -> (j < p)%nat ->
    mget (map (map f) X) i j = f (mget X i j).
  Proof.
    intros n p f X i j Hwf Hi Hj. rewrite (mget_map_rows n p) by auto.
    unfold mget. apply nth_map_lt. rewrite (wf_nth_row n p); auto.
  Qed.

  Lemma col_mapmap : forall n p (f : A -> A) (X : mat A) j, wf n p X -> (j < p)%nat ->
    col j (map (map f) X) = map f (col j X).
  Proof.
    intros n p f X j [_ HF] Hj. unfold col. rewrite !map_map. apply map_ext_in. intros r Hr.
    rewrite Forall_forall in HF. apply nth_map_lt. rewrite HF; auto.
  Qed.

  Lemma wf_map2_rows : forall n p (f : A -> A -> A) (X : mat A) v, wf n p X -> length v = p ->
    wf n p (map (fun r => map2 f r v) X).
  Proof.
    intros n p f X v Hwf Hv. eapply wf_map_rows; eauto. intros r Hr. rewrite map2_length_eq; congruence.
  Qed.

  Lemma mget_map2_rows : forall n p (f : A -> A -> A) (X : mat A) v i j, wf n p X -> length v = p ->
    (i < n)%nat -> (j < p)%nat -> mget (map (fun r => map2 f r v) X) i j = f (mget X i j) (nth j v n0).
  Proof.
    intros n p f X v i j Hwf Hv Hi Hj. rewrite (mget_map_rows n p) by auto.
    unfold mget. apply nth_map2; [rewrite (wf_nth_row n p); auto|congruence].
  Qed.

  Lemma col_map2_rows : forall n p (f : A -> A -> A) (X : mat A) v j, wf n p X -> length v = p -> (j < p)%nat ->
    col j (map (fun r => map2 f r v) X) = map (fun x => f x (nth j v n0)) (col j X).
  Proof.
    intros n p f X v j [_ HF] Hv Hj. unfold col. rewrite !map_map. apply map_ext_in. intros r Hr.
    rewrite Forall_forall in HF. apply nth_map2; [rewrite HF; auto|congruence].
  Qed.

  Lemma col_perm : forall j (X Y : mat A), Permutation X Y -> Permutation (col j X) (col j Y).
  Proof. intros; apply Permutation_map; assumption. Qed.

  Lemma wf_perm : forall n p (X Y : mat A), Permutation X Y -> wf n p X -> wf n p Y.
  Proof.
    intros n p X Y Hp [Hl HF]; split; [rewrite <- (Permutation_length Hp); exact Hl|].
    eapply Permutation_Forall; eauto.
  Qed.

  Lemma wf_cons : forall n p r (X : mat A), length r = p -> wf n p X -> wf (S n) p (r :: X).
  Proof. intros n p r X Hr [Hl HF]; split; cbn; [lia|constructor; auto]. Qed.
  Lemma wf_nil : forall p, wf 0 p ([] : mat A).
  Proof. intros; split; [reflexivity|constructor]. Qed.

  Lemma mapM_Ok : forall {B C} (f : B -> res C) (g : B -> C) l,
    (forall x, In x l -> f x = Ok (g x)) -> mapM f l = Ok (map g l).
  Proof.
    intros B C f g l; induction l as [|x l IH]; intros Hf; cbn; auto.
    rewrite Hf by (left; auto). cbn. rewrite IH by (intros; apply Hf; right; auto). reflexivity.
  Qed.

  Lemma mapM_Ok_inv : forall {B C} (f : B -> res C) l l', mapM f l = Ok l' ->
    length l' = length l /\ forall i d d', (i < length l)%nat -> f (nth i l d) = Ok (nth i l' d').
  Proof.
    intros B C f l; induction l as [|x l IH]; intros l' Hm; cbn in Hm.
    - injection Hm as <-; split; auto. intros; cbn in *; lia.
    - destruct (f x) as [y|e] eqn:E; cbn in Hm; [|discriminate].
      destruct (mapM f l) as [ys|e] eqn:E2; cbn in Hm; [|discriminate]. injection Hm as <-.
      destruct (IH ys eq_refl) as [Hl Hn]. split; [cbn; lia|].
      intros [|i] d d' Hi; cbn in *; [exact E|apply Hn; lia].
  Qed.
End Mat.
