(** Linear algebra over the reals for matrices given by rows. *)

From Coq Require Import Reals List Arith ZArith Bool Lia Lra.
Import ListNotations.
From Verif Require Import Num Err Vec VecR L_Mat.
Open Scope R_scope.

Lemma matvec_length : forall (X : list (list R)) w, length (matvec X w) = length X.
Proof. intros; apply map_length. Qed.
Lemma nth_matvec : forall (X : list (list R)) w i, (i < length X)%nat -> nth i (matvec X w) 0 = dot (nth i X []) w.
Proof. intros X w i Hi. unfold matvec. apply (nth_map_lt (fun r => dot r w) X i [] 0 Hi). Qed.
Lemma tmatvec_length : forall n p (X : list (list R)) y, wf n p X -> (0 < n)%nat -> length (tmatvec X y) = p.
Proof. intros n p X y Hw Hn. unfold tmatvec. rewrite map_length, cols_length. apply (wf_ncols n p); auto. Qed.
Lemma nth_tmatvec : forall n p (X : list (list R)) y j, wf n p X -> (0 < n)%nat -> (j < p)%nat ->
  nth j (tmatvec X y) 0 = dot (col j X) y.
Proof.
  intros n p X y j Hw Hn Hj. unfold tmatvec. apply (map_cols_nth (fun c => dot c y)).
  rewrite (wf_ncols n p); auto.
Qed.

Lemma dot_row_sumn : forall n p (X : list (list R)) w i, wf n p X -> (i < n)%nat -> length w = p ->
  dot (nth i X []) w = sumn p (fun j => mget X i j * nth j w 0).
Proof.
  intros n p X w i Hw Hi Hl. rewrite (dot_sumn _ _ p); auto. apply (wf_nth_row n p); auto.
Qed.
Lemma dot_col_sumn : forall n p (X : list (list R)) y j, wf n p X -> length y = n ->
  dot (col j X) y = sumn n (fun i => mget X i j * nth i y 0).
Proof.
  intros n p X y j Hw Hl. rewrite (dot_sumn _ _ n); auto.
  - apply sumn_ext. intros i Hi. pose proof (nth_col X i j) as E. rnum. rewrite E. reflexivity.
  - rewrite col_length. apply (wf_length _ _ _ Hw).
Qed.

(** <X'y, w> = <y, X w> *)
Lemma adjoint : forall n p (X : list (list R)) y w, wf n p X -> (0 < n)%nat -> length y = n -> length w = p ->
  dot (tmatvec X y) w = dot y (matvec X w).
Proof.
  intros n p X y w Hw Hn Hy Hl.
  rewrite (dot_sumn _ _ p) by (auto; apply (tmatvec_length n p); auto).
  rewrite (dot_sumn _ _ n) by (auto; rewrite matvec_length; apply (wf_length _ _ _ Hw)).
  transitivity (sumn p (fun j => sumn n (fun i => mget X i j * nth i y 0 * nth j w 0))).
  - apply sumn_ext. intros j Hj. rewrite (nth_tmatvec n p) by auto. rewrite (dot_col_sumn n p) by auto.
    symmetry. apply sumn_scal_r.
  - rewrite sumn_exchange. apply sumn_ext. intros i Hi.
    rewrite nth_matvec by (rewrite (wf_length _ _ _ Hw); auto).
    rewrite (dot_row_sumn n p) by auto. rewrite <- sumn_scal. apply sumn_ext. intros j Hj. ring.
Qed.

Lemma vec_ext_dot : forall (u v : list R) n, length u = n -> length v = n ->
  (forall w, length w = n -> dot u w = dot v w) -> u = v.
Proof.
  intros u v n Hu Hv Hd.
  assert (Hz : dot (vsub u v) (vsub u v) = 0).
  { rewrite dot_vsub_l by lia. rewrite Hd; [ring|]. rewrite vsub_length; lia. }
  apply dot_self_zero in Hz. apply (list_ext _ _ 0); [lia|]. intros i Hi.
  rewrite Forall_forall in Hz.
  assert (E : nth i (vsub u v) 0 = 0) by (apply Hz, nth_In; rewrite vsub_length; lia).
  unfold vsub in E. rewrite (nth_map2 _ _ _ _ 0 0) in E by lia. rnum. lra.
Qed.

Lemma nth_vadd : forall (u v : list R) i, length u = length v -> (i < length u)%nat ->
  nth i (vadd u v) 0 = nth i u 0 + nth i v 0.
Proof. intros; unfold vadd; rewrite (nth_map2 _ _ _ _ 0 0) by lia; reflexivity. Qed.
Lemma nth_vsub : forall (u v : list R) i, length u = length v -> (i < length u)%nat ->
  nth i (vsub u v) 0 = nth i u 0 - nth i v 0.
Proof. intros; unfold vsub; rewrite (nth_map2 _ _ _ _ 0 0) by lia; reflexivity. Qed.
Lemma nth_vscale : forall a (u : list R) i, nth i (vscale a u) 0 = a * nth i u 0.
Proof.
  intros a u i. unfold vscale. destruct (Nat.lt_ge_cases i (length u)).
  - rewrite (nth_map_lt _ _ _ 0) by auto. reflexivity.
  - rewrite !nth_overflow by (rewrite ?map_length; auto). ring.
Qed.

Lemma matvec_vadd : forall n p (X : list (list R)) u v, wf n p X -> length u = p -> length v = p ->
  matvec X (vadd u v) = vadd (matvec X u) (matvec X v).
Proof.
  intros n p X u v Hw Hu Hv. apply (list_ext _ _ 0).
  - rewrite vadd_length, !matvec_length by (rewrite !matvec_length; auto). reflexivity.
  - intros i Hi. rewrite matvec_length in Hi. rewrite nth_vadd by (rewrite ?matvec_length; auto).
    rewrite !nth_matvec by auto. apply dot_vadd_r. lia.
Qed.
Lemma matvec_vsub : forall n p (X : list (list R)) u v, wf n p X -> length u = p -> length v = p ->
  matvec X (vsub u v) = vsub (matvec X u) (matvec X v).
Proof.
  intros n p X u v Hw Hu Hv. apply (list_ext _ _ 0).
  - rewrite vsub_length, !matvec_length by (rewrite !matvec_length; auto). reflexivity.
  - intros i Hi. rewrite matvec_length in Hi. rewrite nth_vsub by (rewrite ?matvec_length; auto).
    rewrite !nth_matvec by auto. apply dot_vsub_r. lia.
Qed.
Lemma matvec_vscale : forall (X : list (list R)) a u, matvec X (vscale a u) = vscale a (matvec X u).
Proof.
  intros X a u. unfold matvec, vscale at 2. rewrite map_map. apply map_ext. intros r. apply dot_vscale_r.
Qed.

(** rank-one deflation *)
Lemma wf_outer : forall (u v : list R), wf (length u) (length v) (outer u v).
Proof.
  intros u v. split; [apply map_length|]. apply Forall_forall. intros r Hr.
  apply in_map_iff in Hr as [a [<- _]]. apply vscale_length.
Qed.
Lemma wf_msub : forall n p (X Y : list (list R)), wf n p X -> wf n p Y -> wf n p (msub X Y).
Proof.
  intros n p X Y [Hx HX] [Hy HY]. split; [unfold msub; rewrite map2_length; lia|].
  rewrite Forall_forall in *. intros r Hr. unfold msub in Hr.
  apply (In_nth _ _ []) in Hr as [i [Hi <-]]. rewrite map2_length in Hi.
  rewrite (nth_map2 _ _ _ _ [] []) by lia.
  rewrite vsub_length; [apply HX, nth_In; lia|].
  rewrite (HX (nth i X [])), (HY (nth i Y [])) by (apply nth_In; lia). reflexivity.
Qed.
Lemma mget_msub : forall n p (X Y : list (list R)) i j, wf n p X -> wf n p Y -> (i < n)%nat -> (j < p)%nat ->
  mget (msub X Y) i j = mget X i j - mget Y i j.
Proof.
  intros n p X Y i j HX HY Hi Hj. unfold mget, msub.
  rewrite (nth_map2 _ _ _ _ [] []) by (rewrite ?(wf_length _ _ _ HX), ?(wf_length _ _ _ HY); auto).
  apply nth_vsub; rewrite !(wf_nth_row n p) by auto; auto.
Qed.
Lemma mget_outer : forall (u v : list R) i j, (i < length u)%nat -> mget (outer u v) i j = nth i u 0 * nth j v 0.
Proof.
  intros u v i j Hi. unfold mget, outer. rewrite (nth_map_lt _ _ _ 0) by auto. apply nth_vscale.
Qed.
Lemma matvec_deflate : forall n p (X : list (list R)) t q w, wf n p X -> length t = n -> length q = p -> length w = p ->
  matvec (msub X (outer t q)) w = vsub (matvec X w) (vscale (dot q w) t).
Proof.
  intros n p X t q w Hw Ht Hq Hl.
  assert (Ho : wf n p (outer t q)) by (subst; apply wf_outer).
  assert (Hm := wf_msub n p X _ Hw Ho).
  apply (list_ext _ _ 0).
  - rewrite vsub_length, !matvec_length; rewrite ?matvec_length, ?vscale_length, ?(wf_length _ _ _ Hw), ?(wf_length _ _ _ Hm); auto.
  - intros i Hi. rewrite matvec_length, (wf_length _ _ _ Hm) in Hi.
    rewrite nth_vsub by (rewrite ?matvec_length, ?vscale_length, ?(wf_length _ _ _ Hw); auto).
    rewrite !nth_matvec by (rewrite ?(wf_length _ _ _ Hw), ?(wf_length _ _ _ Hm); auto).
    rewrite !(dot_row_sumn n p) by auto. rewrite nth_vscale, (dot_sumn q w p) by auto.
    rewrite Rmult_comm, <- sumn_scal, <- sumn_minus. apply sumn_ext. intros j Hj.
    rewrite (mget_msub n p) by auto. rewrite mget_outer by lia. ring.
Qed.
Lemma tmatvec_deflate : forall n p (X : list (list R)) t q y, wf n p X -> (0 < n)%nat -> length t = n -> length q = p -> length y = n ->
  tmatvec (msub X (outer t q)) y = vsub (tmatvec X y) (vscale (dot t y) q).
Proof.
  intros n p X t q y Hw Hn Ht Hq Hl.
  assert (Ho : wf n p (outer t q)) by (subst; apply wf_outer).
  assert (Hm := wf_msub n p X _ Hw Ho).
  apply (list_ext _ _ 0).
  - rewrite vsub_length; rewrite !(tmatvec_length n p) by auto; auto. rewrite vscale_length; auto.
  - intros j Hj. rewrite (tmatvec_length n p) in Hj by auto.
    rewrite nth_vsub by (rewrite ?(tmatvec_length n p), ?vscale_length by auto; auto).
    rewrite !(nth_tmatvec n p) by auto. rewrite !(dot_col_sumn n p) by auto.
    rewrite nth_vscale, (dot_sumn t y n) by auto.
    rewrite Rmult_comm, <- sumn_scal, <- sumn_minus. apply sumn_ext. intros i Hi.
    rewrite (mget_msub n p) by auto. rewrite mget_outer by lia. ring.
Qed.

(** sums of rows *)
Lemma vsum_col_sumn : forall n p (X : list (list R)) j, wf n p X ->
  vsum (col j X) = sumn n (fun i => mget X i j).
Proof.
  intros n p X j Hw. rewrite vsum_sumn, col_length, (wf_length _ _ _ Hw). apply sumn_ext. intros i Hi. exact (nth_col X i j).
Qed.
Lemma vsum_row_sumn : forall n p (X : list (list R)) i, wf n p X -> (i < n)%nat ->
  vsum (nth i X []) = sumn p (fun j => mget X i j).
Proof. intros n p X i Hw Hi. rewrite vsum_sumn, (wf_nth_row n p) by auto. reflexivity. Qed.

Lemma dot_colsums : forall n p (X : list (list R)) (a : R) w, wf n p X -> (0 < n)%nat -> length w = p ->
  dot (map (fun c => a * vsum c) (cols X)) w = a * vsum (matvec X w).
Proof.
  intros n p X a w Hw Hn Hl.
  rewrite (dot_sumn _ _ p) by (auto; rewrite map_length, cols_length; apply (wf_ncols n p); auto).
  rewrite vsum_sumn, matvec_length, (wf_length _ _ _ Hw).
  transitivity (sumn p (fun j => sumn n (fun i => a * (mget X i j * nth j w 0)))).
  - apply sumn_ext. intros j Hj. rewrite (map_cols_nth (fun c => a * vsum c)) by (rewrite (wf_ncols n p); auto).
    rewrite (vsum_col_sumn n p) by auto. rewrite <- sumn_scal, <- sumn_scal_r. apply sumn_ext. intros; ring.
  - rewrite sumn_exchange, <- sumn_scal. apply sumn_ext. intros i Hi.
    rewrite nth_matvec by (rewrite (wf_length _ _ _ Hw); auto). rewrite (dot_row_sumn n p) by auto.
    rewrite sumn_scal. reflexivity.
Qed.
