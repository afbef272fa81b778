(** Matrices as functions of the indices. *)

From Coq Require Import Reals List Arith ZArith Bool Lra Lia.
Import ListNotations.
From Verif Require Import Num Err Vec VecR S_Stats L_Mat L_Lin L_Matmul L_Stats M_SdrUtils S_Sudire.
Open Scope R_scope.

Definition rep (n p : nat) (X : list (list R)) (f : nat -> nat -> R) : Prop :=
  wf n p X /\ forall i j, (i < n)%nat -> (j < p)%nat -> mget X i j = f i j.

Lemma sum_to_sumn : forall n f, sum_to n f = sumn n f. Proof. reflexivity. Qed.

Lemma rep_self : forall n p X, wf n p X -> rep n p X (mget X).
Proof. split; auto. Qed.
Lemma rep_ext : forall n p X f g, rep n p X f -> (forall i j, (i < n)%nat -> (j < p)%nat -> f i j = g i j) -> rep n p X g.
Proof. intros n p X f g [W E] Hfg. split; auto. intros. rewrite E by auto. auto. Qed.
Lemma rep_eq : forall n p X Y f g, rep n p X f -> rep n p Y g -> (forall i j, (i < n)%nat -> (j < p)%nat -> f i j = g i j) -> X = Y.
Proof. intros n p X Y f g [W E] [W' E'] Hfg. apply (mat_ext n p); auto. intros. rnum. rewrite E, E' by auto. auto. Qed.

Lemma rep_matmul : forall n k p X Y f g, (0 < k)%nat -> rep n k X f -> rep k p Y g -> rep n p (matmul X Y) (fun i j => sumn k (fun a => f i a * g a j)).
Proof.
  intros n k p X Y f g Hk [WX EX] [WY EY]. split; [apply (wf_matmul n k p); auto|].
  intros i j Hi Hj. rewrite (mget_matmul n k p) by auto. apply sumn_ext. intros a Ha. rewrite EX, EY by auto. reflexivity.
Qed.
Lemma rep_transpose : forall n p X f, (0 < n)%nat -> rep n p X f -> rep p n (transpose X) (fun i j => f j i).
Proof.
  intros n p X f Hn [W E]. split; [apply wf_cols; auto|]. intros i j Hi Hj. unfold transpose.
  rewrite <- E by auto. apply (mget_cols n p); auto.
Qed.
Lemma rep_identity : forall k, rep k k (identity k) delta.
Proof. intros k. split; [apply wf_identity|]. intros i j Hi Hj. apply mget_identity; auto. Qed.
Lemma rep_msub : forall n p X Y f g, rep n p X f -> rep n p Y g -> rep n p (msub X Y) (fun i j => f i j - g i j).
Proof. intros n p X Y f g [WX EX] [WY EY]. split; [apply wf_msub; auto|]. intros. rewrite (mget_msub n p) by auto. rewrite EX, EY by auto. reflexivity. Qed.

Lemma wf_madd : forall n p (X Y : list (list R)), wf n p X -> wf n p Y -> wf n p (madd X Y).
Proof.
  intros n p X Y [Hx HX] [Hy HY]. split; [unfold madd; rewrite map2_length; lia|].
  rewrite Forall_forall in *. intros r Hr. unfold madd in Hr.
  apply (In_nth _ _ []) in Hr as [i [Hi <-]]. rewrite map2_length in Hi.
  rewrite (nth_map2 _ _ _ _ [] []) by lia.
  rewrite vadd_length; [apply HX, nth_In; lia|].
  rewrite (HX (nth i X [])), (HY (nth i Y [])) by (apply nth_In; lia). reflexivity.
Qed.
Lemma mget_madd : forall n p (X Y : list (list R)) i j, wf n p X -> wf n p Y -> (i < n)%nat -> (j < p)%nat -> mget (madd X Y) i j = mget X i j + mget Y i j.
Proof.
  intros n p X Y i j HX HY Hi Hj. unfold mget, madd.
  rewrite (nth_map2 _ _ _ _ [] []) by (rewrite ?(wf_length _ _ _ HX), ?(wf_length _ _ _ HY); auto).
  apply nth_vadd; rewrite !(wf_nth_row n p) by auto; auto.
Qed.
Lemma rep_madd : forall n p X Y f g, rep n p X f -> rep n p Y g -> rep n p (madd X Y) (fun i j => f i j + g i j).
Proof. intros n p X Y f g [WX EX] [WY EY]. split; [apply wf_madd; auto|]. intros. rewrite (mget_madd n p) by auto. rewrite EX, EY by auto. reflexivity. Qed.

Lemma rep_map_rows : forall n p (X : list (list R)) (h : R -> R) f, rep n p X f -> rep n p (map (map h) X) (fun i j => h (f i j)).
Proof.
  intros n p X h f [W E]. split.
  - destruct W as [L F]. split; [rewrite map_length; auto|]. apply Forall_forall. intros r Hr. apply in_map_iff in Hr as [r' [<- Hr']].
    rewrite map_length. rewrite Forall_forall in F. auto.
  - intros i j Hi Hj. rewrite <- E by auto. unfold mget.
    rewrite (nth_map_lt _ _ _ []) by (rewrite (wf_length _ _ _ W); auto).
    rewrite (nth_map_lt _ _ _ n0) by (rewrite (wf_nth_row _ _ _ _ W); auto). reflexivity.
Qed.
Lemma rep_mscale : forall n p X f a, rep n p X f -> rep n p (mscale a X) (fun i j => a * f i j).
Proof. intros n p X f a E. exact (rep_map_rows n p X (Rmult a) f E). Qed.

Lemma rep_table : forall n p (f : nat -> nat -> R), rep n p (map (fun i => map (fun j => f i j) (seq 0 p)) (seq 0 n)) f.
Proof.
  intros n p f. split.
  - split; [rewrite map_length, seq_length; auto|]. apply Forall_forall. intros r Hr. apply in_map_iff in Hr as [i [<- _]].
    rewrite map_length, seq_length. auto.
  - intros i j Hi Hj. unfold mget. rewrite (nth_map_lt _ _ _ 0%nat) by (rewrite seq_length; auto). rewrite seq_nth by auto.
    rewrite (nth_map_lt _ _ _ 0%nat) by (rewrite seq_length; auto). rewrite seq_nth by auto. reflexivity.
Qed.
Lemma rep_diag : forall (v : list R), rep (length v) (length v) (diag v) (fun i j => if (i =? j)%nat then nth i v 0 else 0).
Proof. intros v. exact (rep_table (length v) (length v) _). Qed.
Lemma rep_zero : forall p, rep p p (zero_mat p) (fun _ _ => 0).
Proof.
  intros p. split.
  - split; [apply repeat_length|]. apply Forall_forall. intros r Hr. apply repeat_spec in Hr. subst. apply repeat_length.
  - intros i j Hi Hj. unfold mget, zero_mat. rewrite (nth_indep _ [] (vzeros p)) by (rewrite repeat_length; auto). rewrite nth_repeat.
    unfold vzeros. apply nth_repeat.
Qed.
Lemma rep_outer : forall (u v : list R), rep (length u) (length v) (outer u v) (fun i j => nth i u 0 * nth j v 0).
Proof. intros u v. split; [apply wf_outer|]. intros. apply mget_outer; auto. Qed.

Lemma rep_npcov : forall n p X, (0 < n)%nat -> wf n p X -> rep p p (npcov X) (fun i j => cov2 (col i X) (col j X)).
Proof.
  intros n p X Hn W. assert (Hc : ncols X = p) by (apply (wf_ncols n); auto). split.
  - split; [unfold npcov; rewrite map_length, cols_length; auto|]. apply Forall_forall. intros r Hr. apply in_map_iff in Hr as [c [<- _]].
    rewrite map_length, cols_length; auto.
  - intros i j Hi Hj. unfold mget, npcov. rewrite (map_cols_nth _ X) by (rewrite Hc; auto).
    rewrite (map_cols_nth _ X) by (rewrite Hc; auto). reflexivity.
Qed.

Lemma rep_fold : forall {B} p (g : B -> list (list R)) (f : B -> nat -> nat -> R) used M m, rep p p M m ->
  (forall a, In a used -> rep p p (g a) (f a)) ->
  rep p p (fold_left (fun M a => madd M (g a)) used M) (fun i j => m i j + sum_of (map (fun a => f a i j) used)).
Proof.
  intros B p g f used. induction used as [|a used IH]; intros M m HM Hg; cbn [fold_left map sum_of fold_right].
  - eapply rep_ext; [exact HM|]. intros. unfold sum_of; cbn. lra.
  - eapply rep_ext; [apply (IH _ _ (rep_madd _ _ _ _ _ _ HM (Hg a (or_introl eq_refl))))|].
    + intros b Hb. apply Hg. right; auto.
    + intros i j Hi Hj. unfold sum_of. cbn. lra.
Qed.

(** quadratic forms *)
Lemma quad_form_sumn : forall p M f v, rep p p M f -> quad_form p M v = sumn p (fun i => sumn p (fun j => nth i v 0 * f i j * nth j v 0)).
Proof.
  intros p M f v [W E]. unfold quad_form. rewrite !sum_to_sumn. apply sumn_ext. intros i Hi. rewrite sum_to_sumn. apply sumn_ext. intros j Hj.
  rewrite cell_mget, E by auto. reflexivity.
Qed.
Lemma sumn_square : forall p (g : nat -> R), sumn p (fun i => sumn p (fun j => g i * g j)) = (sumn p g) * (sumn p g).
Proof.
  intros p g. rewrite <- sumn_scal_r. apply sumn_ext. intros i _. rewrite sumn_scal. ring.
Qed.
Lemma sum_of_map_scal : forall {B} (a : R) (f : B -> R) l, sum_of (map (fun b => a * f b) l) = a * sum_of (map f l).
Proof. intros. rewrite !sum_of_vsum. apply vsum_map_scal. Qed.
Lemma sumn_sum_of : forall {B} p (f : nat -> B -> R) l, sumn p (fun i => sum_of (map (f i) l)) = sum_of (map (fun b => sumn p (fun i => f i b)) l).
Proof.
  intros B p f l. induction l as [|b l IH]; unfold sum_of; cbn [map fold_right].
  - apply sumn_zero. auto.
  - rewrite sumn_plus. f_equal. exact IH.
Qed.
Lemma sum_of_map_ext : forall {B} (f g : B -> R) l, (forall b, In b l -> f b = g b) -> sum_of (map f l) = sum_of (map g l).
Proof. intros B f g l E. f_equal. apply map_ext_in. auto. Qed.
Lemma sum_of_nonneg : forall {B} (f : B -> R) l, (forall b, In b l -> 0 <= f b) -> 0 <= sum_of (map f l).
Proof. intros B f l E. rewrite sum_of_vsum. apply vsum_map_nonneg; auto. Qed.
