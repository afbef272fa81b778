(** Matrix products over the reals. *)

From Coq Require Import Reals List Arith ZArith Bool Lia Lra.
Import ListNotations.
From Verif Require Import Num Err Vec VecR L_Mat L_Lin.
Open Scope R_scope.

Lemma wf_of_cols : forall {A} `{Num A} p (cs : list (list A)), wf p (length cs) (of_cols p cs).
Proof.
  intros A NA p cs. split; [unfold of_cols; rewrite map_length, seq_length; reflexivity|].
  apply Forall_forall. intros r Hr. apply in_map_iff in Hr as [j [<- _]]. apply map_length.
Qed.
Lemma mget_of_cols : forall {A} `{Num A} p (cs : list (list A)) i j, (i < p)%nat -> (j < length cs)%nat ->
  mget (of_cols p cs) i j = nth i (nth j cs []) n0.
Proof.
  intros A NA p cs i j Hi Hj. unfold mget, of_cols. rewrite (nth_map_lt _ _ _ 0%nat) by (rewrite seq_length; auto).
  rewrite seq_nth by auto. rewrite (nth_map_lt _ _ _ []) by auto. reflexivity.
Qed.
Lemma mget_of_cols_R : forall p (cs : list (list R)) i j, (i < p)%nat -> (j < length cs)%nat ->
  mget (of_cols p cs) i j = nth i (nth j cs []) 0.
Proof. intros p cs i j Hi Hj. exact (mget_of_cols p cs i j Hi Hj). Qed.
Lemma col_of_cols : forall p (cs : list (list R)) j, (j < length cs)%nat -> length (nth j cs []) = p ->
  col j (of_cols p cs) = nth j cs [].
Proof.
  intros p cs j Hj Hl. apply (list_ext _ _ 0).
  - rewrite col_length, (wf_length _ _ _ (wf_of_cols p cs)); auto.
  - intros i Hi. rewrite col_length, (wf_length _ _ _ (wf_of_cols p cs)) in Hi.
    pose proof (nth_col (of_cols p cs) i j) as E. rnum. rewrite E. apply mget_of_cols_R; auto.
Qed.
Lemma cols_of_cols : forall p (cs : list (list R)), (0 < p)%nat -> Forall (fun c => length c = p) cs -> cols (of_cols p cs) = cs.
Proof.
  intros p cs Hp Hf. apply (list_ext _ _ []).
  - rewrite cols_length. apply (wf_ncols p); auto. apply wf_of_cols.
  - intros j Hj. rewrite cols_length, (wf_ncols p (length cs)) in Hj by (auto; apply wf_of_cols).
    rewrite nth_cols by (rewrite (wf_ncols p (length cs)); auto; apply wf_of_cols).
    apply col_of_cols; auto. rewrite Forall_forall in Hf. apply Hf, nth_In; auto.
Qed.

Lemma wf_matmul : forall n k p (X Y : list (list R)), wf n k X -> wf k p Y -> (0 < k)%nat -> wf n p (matmul X Y).
Proof.
  intros n k p X Y HX HY Hk. unfold matmul. eapply wf_map_rows; eauto. intros r _.
  rewrite map_length, cols_length. apply (wf_ncols k); auto.
Qed.
Lemma mget_matmul : forall n k p (X Y : list (list R)) i j, wf n k X -> wf k p Y -> (0 < k)%nat -> (i < n)%nat -> (j < p)%nat ->
  mget (matmul X Y) i j = sumn k (fun a => mget X i a * mget Y a j).
Proof.
  intros n k p X Y i j HX HY Hk Hi Hj. unfold matmul. rewrite (mget_map_rows n k) by auto.
  rewrite (map_cols_nth (fun c => dot (nth i X []) c)) by (rewrite (wf_ncols k p); auto).
  rewrite (dot_sumn _ _ k).
  - apply sumn_ext. intros a Ha. pose proof (nth_col Y a j) as E. rnum. rewrite E. reflexivity.
  - apply (wf_nth_row n k); auto.
  - rewrite col_length. apply (wf_length _ _ _ HY).
Qed.
Lemma matmul_assoc : forall n k l p (X Y Z : list (list R)), wf n k X -> wf k l Y -> wf l p Z -> (0 < k)%nat -> (0 < l)%nat ->
  matmul X (matmul Y Z) = matmul (matmul X Y) Z.
Proof.
  intros n k l p X Y Z HX HY HZ Hk Hl.
  assert (HYZ := wf_matmul k l p Y Z HY HZ Hl). assert (HXY := wf_matmul n k l X Y HX HY Hk).
  apply (mat_ext n p); [apply (wf_matmul n k p); auto|apply (wf_matmul n l p); auto|].
  intros i j Hi Hj. rewrite (mget_matmul n k p) by auto. rewrite (mget_matmul n l p) by auto.
  transitivity (sumn k (fun a => sumn l (fun b => mget X i a * mget Y a b * mget Z b j))).
  - apply sumn_ext. intros a Ha. rewrite (mget_matmul k l p) by auto. rewrite <- sumn_scal. apply sumn_ext. intros; ring.
  - rewrite sumn_exchange. apply sumn_ext. intros b Hb. rewrite (mget_matmul n k l) by auto. rewrite <- sumn_scal_r. reflexivity.
Qed.
Lemma wf_identity : forall k, wf k k (identity (A:=R) k).
Proof.
  intros k. split; [unfold identity; rewrite map_length, seq_length; reflexivity|].
  apply Forall_forall. intros r Hr. apply in_map_iff in Hr as [j [<- _]]. rewrite map_length, seq_length; reflexivity.
Qed.
Lemma mget_identity : forall k i j, (i < k)%nat -> (j < k)%nat -> mget (identity (A:=R) k) i j = if Nat.eqb i j then 1 else 0.
Proof.
  intros k i j Hi Hj. unfold mget, identity. rewrite (nth_map_lt _ _ _ 0%nat) by (rewrite seq_length; auto).
  rewrite seq_nth by auto. rewrite (nth_map_lt _ _ _ 0%nat) by (rewrite seq_length; auto). rewrite seq_nth by auto. reflexivity.
Qed.
Lemma matmul_identity_r : forall n k (X : list (list R)), wf n k X -> (0 < k)%nat -> matmul X (identity k) = X.
Proof.
  intros n k X HX Hk. apply (mat_ext n k); auto; [apply (wf_matmul n k k); auto; apply wf_identity|].
  intros i j Hi Hj. rewrite (mget_matmul n k k) by (auto; apply wf_identity).
  rewrite (sumn_ext k _ (fun a => if Nat.eqb a j then mget X i a else 0)).
  - apply sumn_delta; auto.
  - intros a Ha. rewrite mget_identity by auto. destruct (Nat.eqb a j); ring.
Qed.
Lemma matvec_identity : forall k (v : list R), length v = k -> matvec (identity k) v = v.
Proof.
  intros k v Hv. apply (list_ext _ _ 0).
  - rewrite matvec_length, (wf_length _ _ _ (wf_identity k)); auto.
  - intros i Hi. rewrite matvec_length, (wf_length _ _ _ (wf_identity k)) in Hi.
    rewrite nth_matvec by (rewrite (wf_length _ _ _ (wf_identity k)); auto).
    rewrite (dot_row_sumn k k) by (auto; apply wf_identity).
    rewrite (sumn_ext k _ (fun a => if Nat.eqb a i then nth a v 0 else 0)).
    + apply sumn_delta; auto.
    + intros a Ha. rewrite mget_identity by auto. rewrite Nat.eqb_sym. destruct (Nat.eqb a i); ring.
Qed.
Lemma matvec_matmul : forall n k p (X Y : list (list R)) v, wf n k X -> wf k p Y -> (0 < k)%nat -> length v = p ->
  matvec (matmul X Y) v = matvec X (matvec Y v).
Proof.
  intros n k p X Y v HX HY Hk Hv. assert (HXY := wf_matmul n k p X Y HX HY Hk).
  apply (list_ext _ _ 0).
  - rewrite !matvec_length. rewrite (wf_length _ _ _ HXY), (wf_length _ _ _ HX). reflexivity.
  - intros i Hi. rewrite matvec_length, (wf_length _ _ _ HXY) in Hi.
    rewrite !nth_matvec by (rewrite ?(wf_length _ _ _ HXY), ?(wf_length _ _ _ HX); auto).
    rewrite (dot_row_sumn n p) by auto. rewrite (dot_row_sumn n k) by (auto; rewrite matvec_length, (wf_length _ _ _ HY); auto).
    transitivity (sumn p (fun j => sumn k (fun a => mget X i a * mget Y a j * nth j v 0))).
    + apply sumn_ext. intros j Hj. rewrite (mget_matmul n k p) by auto. symmetry. apply sumn_scal_r.
    + rewrite sumn_exchange. apply sumn_ext. intros a Ha. rewrite nth_matvec by (rewrite (wf_length _ _ _ HY); auto).
      rewrite (dot_row_sumn k p) by auto. rewrite <- sumn_scal. apply sumn_ext. intros; ring.
Qed.
(** tmatvec is matvec of the transpose *)
Lemma tmatvec_transpose : forall (X : list (list R)) y, tmatvec X y = matvec (transpose X) y.
Proof. reflexivity. Qed.
Lemma matvec_of_cols : forall n (cs : list (list R)) z i, (i < n)%nat -> length z = length cs -> 
  nth i (matvec (of_cols n cs) z) 0 = sumn (length cs) (fun k => nth i (nth k cs []) 0 * nth k z 0).
Proof.
  intros n cs z i Hi Hz. assert (HW := wf_of_cols n cs). rewrite nth_matvec by (rewrite (wf_length _ _ _ HW); auto).
  rewrite (dot_row_sumn n (length cs)) by auto. apply sumn_ext. intros k Hk. rewrite (mget_of_cols_R n cs i k) by auto. reflexivity.
Qed.
(** <u, W z> = sum_k z_k <u, w_k> *)
Lemma dot_matvec_of_cols : forall n (cs : list (list R)) z u, length u = n -> length z = length cs -> Forall (fun c => length c = n) cs ->
  dot u (matvec (of_cols n cs) z) = sumn (length cs) (fun k => nth k z 0 * dot u (nth k cs [])).
Proof.
  intros n cs z u Hu Hz Hf. assert (HW := wf_of_cols n cs).
  rewrite (dot_sumn _ _ n) by (auto; rewrite matvec_length; apply (wf_length _ _ _ HW)).
  transitivity (sumn n (fun i => sumn (length cs) (fun k => nth i u 0 * nth i (nth k cs []) 0 * nth k z 0))).
  - apply sumn_ext. intros i Hi. rewrite matvec_of_cols by auto. rewrite <- sumn_scal. apply sumn_ext. intros; ring.
  - rewrite sumn_exchange. apply sumn_ext. intros k Hk. rewrite (dot_sumn u _ n); auto.
    + rewrite <- sumn_scal. apply sumn_ext. intros; ring.
    + rewrite Forall_forall in Hf. apply Hf, nth_In; auto.
Qed.
Lemma matmul_of_cols : forall n p (X : list (list R)) cs, wf n p X -> (0 < n)%nat -> (0 < p)%nat -> Forall (fun c => length c = p) cs ->
  matmul X (of_cols p cs) = of_cols n (map (matvec X) cs).
Proof.
  intros n p X cs HX Hn Hp Hf. assert (HW := wf_of_cols p cs).
  pose proof (wf_of_cols n (map (matvec X) cs)) as HV. rewrite map_length in HV.
  apply (mat_ext n (length cs)); auto; [apply (wf_matmul n p); auto|]. intros i j Hi Hj.
  rewrite mget_of_cols_R by (rewrite ?map_length; auto). rewrite (nth_map_lt _ _ _ []) by auto.
  rewrite (mget_matmul n p (length cs)) by auto. change (@n0 R Num_R) with 0.
  rewrite nth_matvec by (rewrite (wf_length _ _ _ HX); auto).
  rewrite (dot_row_sumn n p) by (auto; rewrite Forall_forall in Hf; apply Hf, nth_In; auto).
  apply sumn_ext. intros a Ha. rewrite mget_of_cols_R by auto. reflexivity.
Qed.
