(** Powers of covariance matrices and the standardisation of the data. *)

From Coq Require Import Reals List Arith ZArith Bool Lra Lia.
Import ListNotations.
From Verif Require Import Num Err Vec VecR S_Stats L_Mat L_Lin L_Matmul L_Stats M_SdrUtils S_Sudire L_SdrMat L_SdrKer L_SdrEig.
Open Scope R_scope.

(** an eigendecomposition in index form *)
Definition eigen (p : nat) (m : nat -> nat -> R) (vals : list R) (w : nat -> nat -> R) : Prop :=
  length vals = p /\
  (forall i j, (i < p)%nat -> (j < p)%nat -> sumn p (fun a => w a i * w a j) = delta i j) /\
  (forall i j, (i < p)%nat -> (j < p)%nat -> sumn p (fun a => w i a * w j a) = delta i j) /\
  (forall i j, (i < p)%nat -> (j < p)%nat -> sumn p (fun a => m i a * w a j) = nth j vals 0 * w i j).

Lemma matpower_spec : forall eigh p M m g N, eigh_ok eigh -> (0 < p)%nat -> rep p p M m -> (forall i j, (i < p)%nat -> (j < p)%nat -> m i j = m j i) ->
  matpower eigh M g = Ok N ->
  exists vals w, eigen p m vals w /\ rep p p N (fun i j => sumn p (fun b => g (nth b vals 0) * w i b * w j b)).
Proof.
  intros eigh p M m g N He Hp HM Hsym E. unfold matpower in E.
  set (Ms := map2 (map2 (fun a b => ndiv (nadd a b) (nnat 2))) M (transpose M)) in *.
  assert (EMs : Ms = M).
  { pose proof (rep_transpose p p M m Hp HM) as HT. apply (mat_ext p p); [|apply HM|].
    - split; [unfold Ms; rewrite map2_length, (wf_length _ _ _ (proj1 HM)), (wf_length _ _ _ (proj1 HT)); lia|].
      apply Forall_forall. intros r Hr. apply (In_nth _ _ []) in Hr as [i [Hi <-]]. unfold Ms in *.
      rewrite map2_length, (wf_length _ _ _ (proj1 HM)), (wf_length _ _ _ (proj1 HT)) in Hi.
      rewrite (nth_map2 _ _ _ _ [] []) by (rewrite ?(wf_length _ _ _ (proj1 HM)), ?(wf_length _ _ _ (proj1 HT)); lia).
      rewrite map2_length, (wf_nth_row _ _ _ _ (proj1 HM)), (wf_nth_row _ _ _ _ (proj1 HT)) by lia. lia.
    - intros i j Hi Hj. unfold mget at 1, Ms.
      rewrite (nth_map2 _ _ _ _ [] []) by (rewrite ?(wf_length _ _ _ (proj1 HM)), ?(wf_length _ _ _ (proj1 HT)); lia).
      rewrite (nth_map2 _ _ _ _ n0 n0) by (rewrite ?(wf_nth_row _ _ _ _ (proj1 HM)), ?(wf_nth_row _ _ _ _ (proj1 HT)); lia).
      change (nth j (nth i M []) n0) with (mget M i j). change (nth j (nth i (transpose M) []) n0) with (mget (transpose M) i j).
      rewrite (proj2 HM), (proj2 HT) by auto. rewrite nnat_R. rnum. rewrite (Hsym j i) by auto. cbn. field. }
  rewrite EMs in E. destruct (eigh M) as [[vals V]|e] eqn:EM; [|discriminate]. cbn [bind] in E. apply Ok_inj in E. subst N.
  assert (HS : symmetric p M). { intros i j Hi Hj. rewrite !cell_mget, !(proj2 HM) by auto. auto. }
  destruct (He p M vals V Hp (proj1 HM) HS EM) as [Lv [[WV HO] HE]].
  exists vals, (mget V). split.
  - split; [auto|]. split; [intros; apply HO; auto|]. split; [intros; apply HO; auto|].
    intros i j Hi Hj. eapply eq_trans; [|exact (HE i j Hi Hj)]. change sum_to with sumn. apply sumn_ext. intros a Ha. rewrite <- (proj2 HM) by auto. reflexivity.
  - pose proof (rep_diag (map g vals)) as RD. rewrite map_length, Lv in RD.
    pose proof (rep_self p p V WV) as RV.
    eapply rep_ext; [exact (rep_matmul p p p _ _ _ _ Hp (rep_matmul p p p _ _ _ _ Hp RV RD) (rep_transpose p p V _ Hp RV))|].
    intros i j Hi Hj. cbn beta. apply sumn_ext. intros b Hb.
    rewrite (sumn_ext p _ (fun a => if Nat.eqb a b then mget V i a * nth a (map g vals) 0 else 0)).
    + rewrite sumn_delta by auto. rewrite (nth_map_lt _ _ _ 0) by lia. ring.
    + intros a Ha. destruct (a =? b)%nat; ring.
Qed.

Section Eigen.
  Variables (p : nat) (m : nat -> nat -> R) (vals : list R) (w : nat -> nat -> R).
  Hypothesis HE : eigen p m vals w.

  (** products of functions of m *)
  Lemma fun_product : forall (g h : R -> R) i j, (i < p)%nat -> (j < p)%nat ->
    sumn p (fun a => sumn p (fun b => g (nth b vals 0) * w i b * w a b) * sumn p (fun b => h (nth b vals 0) * w a b * w j b))
    = sumn p (fun b => (g (nth b vals 0) * h (nth b vals 0)) * w i b * w j b).
  Proof.
    intros g h i j Hi Hj. destruct HE as [Lv [Hc [Hr He]]].
    transitivity (sumn p (fun a => sumn p (fun b => sumn p (fun c => (g (nth b vals 0) * w i b * h (nth c vals 0) * w j c) * (w a b * w a c))))).
    - apply sumn_ext. intros a Ha. rewrite <- sumn_scal_r. apply sumn_ext. intros b Hb. rewrite <- sumn_scal. apply sumn_ext. intros c Hc'. ring.
    - rewrite sumn_exchange. apply sumn_ext. intros b Hb. rewrite sumn_exchange.
      rewrite (sumn_ext p _ (fun c => (g (nth b vals 0) * w i b * h (nth c vals 0) * w j c) * delta c b)).
      + rewrite sumn_delta_r by auto. ring.
      + intros c Hc'. rewrite sumn_scal. rewrite (Hc b c) by auto. unfold delta. rewrite Nat.eqb_sym. reflexivity.
  Qed.
  Lemma fun_identity : forall i j, (i < p)%nat -> (j < p)%nat -> sumn p (fun b => 1 * w i b * w j b) = delta i j.
  Proof. intros i j Hi Hj. destruct HE as [Lv [Hc [Hr He]]]. rewrite <- Hr by auto. apply sumn_ext. intros. ring. Qed.
  Lemma fun_self : forall i j, (i < p)%nat -> (j < p)%nat -> m i j = sumn p (fun b => nth b vals 0 * w i b * w j b).
  Proof. intros i j Hi Hj. destruct HE as [Lv [Hc [Hr He]]]. apply (spectral p m vals w); auto. Qed.
  Lemma fun_ext : forall (g h : nat -> R) i j, (forall b, (b < p)%nat -> g b = h b) -> sumn p (fun b => g b * w i b * w j b) = sumn p (fun b => h b * w i b * w j b).
  Proof. intros g h i j E. apply sumn_ext. intros b Hb. rewrite E by auto. reflexivity. Qed.

  (** g(m) m g(m) = I if g(v) v g(v) = 1 at the eigenvalues *)
  Lemma fun_standardises : forall (g : R -> R) (s : nat -> nat -> R), (forall b, (b < p)%nat -> g (nth b vals 0) * nth b vals 0 * g (nth b vals 0) = 1) ->
    (forall i j, (i < p)%nat -> (j < p)%nat -> s i j = sumn p (fun b => g (nth b vals 0) * w i b * w j b)) ->
    forall i j, (i < p)%nat -> (j < p)%nat -> sumn p (fun a => sumn p (fun b => s i a * m a b * s b j)) = delta i j.
  Proof.
    intros g s Hg Hs i j Hi Hj.
    transitivity (sumn p (fun b => sumn p (fun a => s i a * m a b) * s b j)).
    - rewrite sumn_exchange. apply sumn_ext. intros b Hb. apply sumn_scal_r.
    - transitivity (sumn p (fun b => sumn p (fun c => (g (nth c vals 0) * nth c vals 0) * w i c * w b c) * sumn p (fun c => g (nth c vals 0) * w b c * w j c))).
      + apply sumn_ext. intros b Hb. f_equal; [|apply Hs; auto].
        rewrite <- (fun_product g (fun v => v) i b) by auto. apply sumn_ext. intros a Ha. rewrite Hs, fun_self by auto. reflexivity.
      + rewrite (fun_product (fun v => g v * v) g i j) by auto. rewrite <- fun_identity by auto. apply sumn_ext. intros b Hb. rewrite Hg by auto. reflexivity.
  Qed.
End Eigen.

Lemma pos_def_eigen : forall p M m vals w, rep p p M m -> eigen p m vals w -> positive_definite p M -> forall b, (b < p)%nat -> 0 < nth b vals 0.
Proof.
  intros p M m vals w HM [Lv [Hc [Hr He]]] HP b Hb.
  set (v := map (fun a => w a b) (seq 0 p)).
  assert (Lw : length v = p) by (unfold v; rewrite map_length, seq_length; auto).
  assert (Nv : forall a, (a < p)%nat -> nth a v 0 = w a b).
  { intros a Ha. unfold v. rewrite (nth_map_lt _ _ _ 0%nat) by (rewrite seq_length; auto). rewrite seq_nth by auto. reflexivity. }
  assert (Q : quad_form p M v = nth b vals 0).
  { rewrite (quad_form_sumn p M m) by auto. rewrite <- (quad_at_vector p m vals w Hc Hr He b Hb). apply sumn_ext. intros i Hi. apply sumn_ext. intros j Hj.
    rewrite !Nv by auto. reflexivity. }
  rewrite <- Q. apply HP; auto. rewrite (sqlen_sumn p) by auto. rewrite (sumn_ext p _ (fun a => w a b * w a b)).
  - rewrite Hc by auto. unfold delta. rewrite Nat.eqb_refl. lra.
  - intros a Ha. rewrite Nv by auto. ring.
Qed.

Lemma pow_minus_half : forall v, 0 < v -> npowr v (nlit (-1) 2) * v * npowr v (nlit (-1) 2) = 1.
Proof.
  intros v Hv. rnum. unfold Rpowr. destruct (Rlt_dec 0 v) as [L|L]; [|lra].
  rewrite Rmult_comm, <- Rmult_assoc. rewrite <- Rpower_plus. 
  replace v with (Rpower v 1) at 2 by (apply Rpower_1; auto). rewrite <- Rpower_plus.
  match goal with |- Rpower _ ?e = _ => replace e with 0 end; [apply Rpower_O; auto|]. field.
Qed.

Lemma rep_cov : forall n p X, (0 < n)%nat -> wf n p X -> rep p p (npcov X) (fun i j => cov_of (column i X) (column j X)).
Proof. intros n p X Hn W. eapply rep_ext; [apply (rep_npcov n p X); auto|]. intros. apply cov2_cov_of. Qed.
Lemma cov_sym : forall (X : list (list R)) i j, cov_of (column i X) (column j X) = cov_of (column j X) (column i X).
Proof. intros. apply cov_of_sym. unfold column. rewrite !map_length. reflexivity. Qed.
Lemma npcov_matrix : forall n p X, (0 < n)%nat -> wf n p X -> npcov X = covariance_matrix p X.
Proof.
  intros n p X Hn W. eapply rep_eq; [apply (rep_cov n p X); auto|apply (rep_table p p)|]. reflexivity.
Qed.

Lemma signsqrt_spec : forall eigh n p X N, eigh_ok eigh -> (0 < n)%nat -> (0 < p)%nat -> wf n p X -> signsqrt eigh X = Ok N ->
  is_matrix p p N /\ symmetric p N /\ (positive_definite p (covariance_matrix p X) -> standardises p N (covariance_matrix p X)).
Proof.
  intros eigh n p X N He Hn Hp W E. unfold signsqrt in E. destruct (ncols X =? 1)%nat; [discriminate|].
  destruct (matpower_spec eigh p (npcov X) _ _ N He Hp (rep_cov n p X Hn W) ltac:(intros; apply cov_sym) E) as [vals [w [HE [WN EN]]]].
  split; [exact WN|]. assert (HS : symmetric p N).
  { intros i j Hi Hj. rewrite !cell_mget, !EN by auto. apply sumn_ext. intros; ring. }
  split; [auto|]. intros HP. split; [exact WN|]. split; [auto|]. intros i j Hi Hj. change sum_to with sumn.
  rewrite <- (npcov_matrix n p X) in * by auto.
  transitivity (sumn p (fun a => sumn p (fun b => mget N i a * cov_of (column a X) (column b X) * mget N b j))).
  - apply sumn_ext. intros a Ha. apply sumn_ext. intros b Hb. change cell with (mget (A := R)). rewrite (proj2 (rep_cov n p X Hn W)) by auto. reflexivity.
  - apply (fun_standardises p _ vals w HE (fun v => npowr v (nlit (-1) 2))); auto.
    intros b Hb. apply pow_minus_half. apply (pos_def_eigen p (npcov X) _ vals w (rep_cov n p X Hn W) HE HP b Hb).
Qed.

(** integer powers *)
Lemma power_times_length : forall p M t s, length s = p -> length (power_times p M t s) = p.
Proof. intros p M [|t] s Hs; cbn; [auto|]. rewrite map_length, seq_length. auto. Qed.
Lemma eigen_power : forall p M m vals w s t i, rep p p M m -> eigen p m vals w -> length s = p -> (i < p)%nat ->
  sumn p (fun j => sumn p (fun b => nth b vals 0 ^ t * w i b * w j b) * nth j s 0) = nth i (power_times p M t s) 0.
Proof.
  intros p M m vals w s t. induction t as [|t IH]; intros i HM HE Hs Hi.
  - cbn [power_times]. rewrite (sumn_ext p _ (fun j => delta i j * nth j s 0)); [apply sumn_delta_l; auto|].
    intros j Hj. rewrite <- (fun_identity p m vals w HE i j) by auto. reflexivity.
  - cbn [power_times]. rewrite (nth_map_lt _ _ _ 0%nat) by (rewrite seq_length; auto). rewrite seq_nth by auto. cbn [Nat.add].
    change sum_to with sumn.
    transitivity (sumn p (fun a => m i a * sumn p (fun j => sumn p (fun b => nth b vals 0 ^ t * w a b * w j b) * nth j s 0))).
    + rewrite (sumn_ext p (fun a => m i a * _) (fun a => sumn p (fun j => m i a * sumn p (fun b => nth b vals 0 ^ t * w a b * w j b) * nth j s 0))).
      2: { intros a Ha. rewrite <- sumn_scal. apply sumn_ext. intros; ring. }
      rewrite sumn_exchange. apply sumn_ext. intros j Hj. rewrite sumn_scal_r. f_equal.
      rewrite (sumn_ext p (fun a => m i a * _) (fun a => sumn p (fun b => nth b vals 0 * w i b * w a b) * sumn p (fun b => nth b vals 0 ^ t * w a b * w j b))).
      2: { intros a Ha. rewrite (fun_self p m vals w HE i a) by auto. reflexivity. }
      rewrite (fun_product p m vals w HE (fun v => v) (fun v => v ^ t) i j) by auto. apply sumn_ext. intros b Hb. cbn. reflexivity.
    + apply sumn_ext. intros a Ha. rewrite IH by auto. f_equal. symmetry. apply (proj2 HM); auto.
Qed.

Lemma matpower_nat : forall eigh n p X t N s, eigh_ok eigh -> (0 < n)%nat -> (0 < p)%nat -> wf n p X -> length s = p ->
  matpower eigh (npcov X) (fun v => npow v t) = Ok N -> matvec N s = power_times p (covariance_matrix p X) t s.
Proof.
  intros eigh n p X t N s He Hn Hp W Hs E. rewrite <- (npcov_matrix n p X) by auto.
  destruct (matpower_spec eigh p (npcov X) _ _ N He Hp (rep_cov n p X Hn W) ltac:(intros; apply cov_sym) E) as [vals [w [HE [WN EN]]]].
  apply (list_ext _ _ 0); [rewrite matvec_length, (wf_length _ _ _ WN), power_times_length; auto|].
  intros i Hi. rewrite matvec_length, (wf_length _ _ _ WN) in Hi. rewrite nth_matvec by (rewrite (wf_length _ _ _ WN); auto).
  rewrite (dot_row_sumn p p) by auto. rewrite <- (eigen_power p (npcov X) _ vals w s t i (rep_cov n p X Hn W) HE Hs Hi).
  apply sumn_ext. intros j Hj. rewrite EN by auto. f_equal; try (apply sumn_ext; intros b Hb; rewrite npow_R; reflexivity); reflexivity.
Qed.
