(** The matrices of the direct methods under a rotation of the data *)

From Coq Require Import Reals List Arith Bool Lra Lia.
Import List. Import ListNotations.
From Verif Require Import Num Err Vec VecR S_Stats S_Regress L_Mat L_Lin L_Matmul L_Stats M_Utils M_Preproc M_SdrUtils S_Sudire L_SdrMat L_SdrKer L_SdrEig L_SdrPow L_SdrMeth L_SdrFit2 L_SdrCov L_EqMat.
Open Scope R_scope.

(** q' m q *)
Definition conj (p : nat) (q m : fmat) : fmat := fun i j => sumn p (fun a => sumn p (fun b => q a i * m a b * q b j)).
Definition tvec (p : nat) (q : fmat) (u : nat -> R) : nat -> R := fun i => sumn p (fun a => q a i * u a).

Lemma conj_mm : forall p q m i j, conj p q m i j = fmm p (ft q) (fmm p m q) i j.
Proof. intros. unfold conj, fmm, ft. apply sumn_ext. intros a Ha. rewrite <- sumn_scal. apply sumn_ext. intros; ring. Qed.
Lemma conj_ext : forall p q m m', feq p p m m' -> forall i j, conj p q m i j = conj p q m' i j.
Proof. intros p q m m' H i j. apply sumn_ext. intros a Ha. apply sumn_ext. intros b Hb. rewrite H by auto. reflexivity. Qed.
Lemma conj_plus : forall p q m m' i j, conj p q (fun a b => m a b + m' a b) i j = conj p q m i j + conj p q m' i j.
Proof. intros. unfold conj. rewrite <- sumn_plus. apply sumn_ext. intros a Ha. rewrite <- sumn_plus. apply sumn_ext. intros; ring. Qed.
Lemma conj_minus : forall p q m m' i j, conj p q (fun a b => m a b - m' a b) i j = conj p q m i j - conj p q m' i j.
Proof. intros. unfold conj. rewrite <- sumn_minus. apply sumn_ext. intros a Ha. rewrite <- sumn_minus. apply sumn_ext. intros; ring. Qed.
Lemma conj_scal : forall p q m c i j, conj p q (fun a b => c * m a b) i j = c * conj p q m i j.
Proof. intros. unfold conj. rewrite <- sumn_scal. apply sumn_ext. intros a Ha. rewrite <- sumn_scal. apply sumn_ext. intros; ring. Qed.
Lemma conj_outer : forall p q u v i j, conj p q (fun a b => u a * v b) i j = tvec p q u i * tvec p q v j.
Proof. intros. unfold conj, tvec. rewrite <- sumn_scal_r. apply sumn_ext. intros a Ha. rewrite <- sumn_scal. apply sumn_ext. intros; ring. Qed.
Lemma conj_sumn : forall p q n (m : nat -> fmat) i j, conj p q (fun a b => sumn n (fun r => m r a b)) i j = sumn n (fun r => conj p q (m r) i j).
Proof.
  intros. induction n as [|n IH].
  - unfold conj. apply sumn_zero. intros. apply sumn_zero. intros. unfold sumn. cbn. rnum. ring.
  - rewrite sumn_S, <- IH, <- conj_plus. apply conj_ext. intros a b _ _. apply (sumn_S n (fun r => m r a b)).
Qed.
Lemma conj_list : forall p q {B} (m : B -> fmat) (l : list B) i j, conj p q (fun a b => sum_of (map (fun x => m x a b) l)) i j = sum_of (map (fun x => conj p q (m x) i j) l).
Proof.
  intros. unfold sum_of. induction l as [|x l IH]; cbn.
  - unfold conj. apply sumn_zero. intros. apply sumn_zero. intros. ring.
  - rewrite <- IH, <- conj_plus. reflexivity.
Qed.

Section Rotation.
  Variables (p : nat) (q : fmat).
  Hypothesis Hq : orthonormal p p q.
  Let Hr : feq p p (fmm p q (ft q)) delta := square_orthonormal p q Hq.

  Lemma conj_delta : feq p p (conj p q delta) delta.
  Proof. intros i j Hi Hj. rewrite conj_mm. rewrite (fmm_r p p p (ft q) _ q (fid_l p p q) i j) by auto. apply Hq; auto. Qed.
  Lemma conj_prod : forall m m' i j, (i < p)%nat -> (j < p)%nat -> conj p q (fmm p m m') i j = fmm p (conj p q m) (conj p q m') i j.
  Proof.
    intros m m' i j Hi Hj. rewrite conj_mm. symmetry.
    rewrite (fmm_l p p p _ _ _ (fun a b _ _ => conj_mm p q m a b) i j Hi Hj), (fmm_r p p p _ _ _ (fun a b _ _ => conj_mm p q m' a b) i j Hi Hj).
    rewrite fmm_assoc. apply (fmm_r p p p); auto. intros a b Ha Hb. rewrite fmm_assoc.
    transitivity (fmm p m (fmm p m' q) a b); [|symmetry; apply fmm_assoc]. apply (fmm_r p p p); auto. intros e f He Hf.
    rewrite <- fmm_assoc. rewrite (fmm_l p p p _ delta _ Hr e f He Hf). apply (fid_l p p); auto.
  Qed.
  Lemma conj_trace : forall m, ftr p (conj p q m) = ftr p m.
  Proof.
    intros m. rewrite (ftr_ext p _ _ (fun a b _ _ => conj_mm p q m a b)). rewrite ftr_mm. apply ftr_ext. intros i j Hi Hj.
    rewrite fmm_assoc. rewrite (fmm_r p p p m _ delta Hr i j Hi Hj). apply (fid_r p p); auto.
  Qed.
  (** q' u has the length of u, and the quadratic form goes along *)
  Lemma tvec_back : forall u i, (i < p)%nat -> sumn p (fun b => q i b * tvec p q u b) = u i.
  Proof.
    intros u i Hi. change (fmm p q (fmm p (ft q) (fun a _ => u a)) i 0%nat = u i). rewrite <- fmm_assoc. unfold fmm at 1.
    rewrite (sumn_ext p _ (fun a => delta i a * u a)) by (intros a Ha; rewrite (Hr i a Hi Ha); reflexivity). apply sumn_delta_l. auto.
  Qed.
  Lemma tvec_norm : forall u, sumn p (fun a => tvec p q u a ^ 2) = sumn p (fun a => u a ^ 2).
  Proof.
    intros u. rewrite (sumn_ext p _ (fun a => sumn p (fun b => u b * (q b a * tvec p q u a)))).
    2:{ intros a Ha. cbn [pow]. rewrite Rmult_1_r. unfold tvec at 1. rewrite <- sumn_scal_r. apply sumn_ext. intros; ring. }
    rewrite sumn_exchange. apply sumn_ext. intros b Hb. rewrite sumn_scal, tvec_back by auto. ring.
  Qed.
  Lemma tvec_quad : forall m u, quadf p (conj p q m) (tvec p q u) = quadf p m u.
  Proof.
    intros m u. rewrite !quadf_mm.
    assert (H1 : forall i, (i < p)%nat -> sumn p (fun j => conj p q m i j * tvec p q u j) = tvec p q (fun a => sumn p (fun b => m a b * u b)) i).
    { intros i Hi. rewrite (sumn_ext p _ (fun j => fmm p (ft q) (fmm p m q) i j * tvec p q u j)) by (intros; rewrite conj_mm; reflexivity).
      change (fmm p (fmm p (ft q) (fmm p m q)) (fun b _ => tvec p q u b) i 0%nat = tvec p q (fun a => sumn p (fun b => m a b * u b)) i).
      rewrite fmm_assoc. unfold tvec at 2. unfold fmm at 1. apply sumn_ext. intros a Ha. unfold ft. f_equal. rewrite fmm_assoc. unfold fmm at 1. apply sumn_ext. intros b Hb. f_equal. apply tvec_back; auto. }
    rewrite (sumn_ext p _ (fun i => tvec p q u i * tvec p q (fun a => sumn p (fun b => m a b * u b)) i)) by (intros i Hi; rewrite H1 by auto; reflexivity).
    rewrite (sumn_ext p _ (fun a => sumn p (fun b => u b * (q b a * tvec p q (fun a => sumn p (fun b => m a b * u b)) a)))).
    2:{ intros a Ha. unfold tvec at 1. rewrite <- sumn_scal_r. apply sumn_ext. intros; ring. }
    rewrite sumn_exchange. apply sumn_ext. intros b Hb. rewrite sumn_scal, tvec_back by auto. reflexivity.
  Qed.
  Lemma leading_transfer : forall d m v mu, leadf p (conj p q m) d v mu -> leadf p m d (fmm p q v) mu.
  Proof.
    intros d m v mu [Ho [He Hx]]. split; [|split].
    - intros i j Hi Hj. transitivity (fmm p (fmm p (ft v) (ft q)) (fmm p q v) i j).
      + apply (fmm_l d p d); auto. intros a b _ _. apply ft_mm.
      + rewrite fmm_assoc. rewrite (fmm_r d p d (ft v) _ v) by (auto; intros a b Ha Hb; rewrite <- fmm_assoc; rewrite (fmm_l p p d _ delta v Hq a b Ha Hb); apply (fid_l p d); auto).
        apply Ho; auto.
    - intros i c Hi Hc. transitivity (fmm p q (fmm p (conj p q m) v) i c).
      + symmetry. rewrite (fmm_r p p d q _ (fmm p (ft q) (fmm p m (fmm p q v)))) ; auto.
        * rewrite <- fmm_assoc. rewrite (fmm_l p p d _ delta _ Hr i c Hi Hc). apply (fid_l p d); auto.
        * intros a b Ha Hb. rewrite (fmm_l p p d _ _ v (fun x y _ _ => conj_mm p q m x y) a b Ha Hb). rewrite fmm_assoc. apply (fmm_r p p d); auto. intros x y _ _. apply fmm_assoc.
      + unfold fmm at 1 3. rewrite <- sumn_scal. apply sumn_ext. intros a Ha. rewrite He by auto. ring.
    - intros c u Hc Hu. rewrite <- (tvec_quad m u), <- (tvec_norm u). apply Hx; auto. intros i Hi. rewrite <- (Hu i Hi).
      unfold tvec. rewrite (sumn_ext p _ (fun a => sumn p (fun b => u b * (q b a * v a i)))) by (intros a Ha; rewrite <- sumn_scal_r; apply sumn_ext; intros; ring).
      rewrite sumn_exchange. apply sumn_ext. intros b Hb. rewrite sumn_scal. reflexivity.
  Qed.
End Rotation.

(** ** rotated data *)
Definition rotate (p : nat) (q : fmat) (r : list R) : list R := map (fun j => sumn p (fun a => nth a r 0 * q a j)) (seq 0 p).
Lemma rotate_wf : forall n p q X, wf n p X -> wf n p (map (rotate p q) X).
Proof.
  intros n p q X W. split; [rewrite map_length; apply (wf_length _ _ _ W)|]. apply Forall_forall. intros r Hr. apply in_map_iff in Hr as [r' [<- _]].
  unfold rotate. rewrite map_length, seq_length. reflexivity.
Qed.
Lemma rotate_cell : forall n p q X r j, wf n p X -> (r < n)%nat -> (j < p)%nat -> mget (map (rotate p q) X) r j = sumn p (fun a => mget X r a * q a j).
Proof.
  intros n p q X r j W Hr Hj. unfold mget. rewrite (nth_map_lt _ _ _ []) by (rewrite (wf_length _ _ _ W); auto). unfold rotate. rewrite (nth_map_lt _ _ _ 0%nat) by (rewrite seq_length; auto).
  rewrite seq_nth by auto. reflexivity.
Qed.
Lemma rotated : forall n p q X Z, wf n p X -> wf n p Z -> (forall r j, (r < n)%nat -> (j < p)%nat -> mget Z r j = sumn p (fun a => mget X r a * q a j)) -> Z = map (rotate p q) X.
Proof.
  intros n p q X Z WX WZ H. apply (rep_eq n p _ _ (mget Z) (mget (map (rotate p q) X))); [apply rep_self; auto|apply rep_self, rotate_wf; auto|].
  intros i j Hi Hj. rewrite (rotate_cell n p) by auto. apply H; auto.
Qed.

Lemma slice_map : forall (g : list R -> list R) labels X a, slice labels (map g X) a = map g (slice labels X a).
Proof.
  intros g labels. unfold slice. induction labels as [|l labels IH]; intros X a; [reflexivity|]. destruct X as [|r X]; [reflexivity|]. cbn.
  destruct (Req_EM_T l a); cbn; rewrite IH; reflexivity.
Qed.
Lemma slice_wf : forall n p labels X a, wf n p X -> wf (length (slice labels X a)) p (slice labels X a).
Proof.
  intros n p labels X a W. split; [reflexivity|]. apply Forall_forall. intros r Hr. unfold slice in Hr. apply in_map_iff in Hr as [[l r'] [<- Hr]].
  apply filter_In in Hr as [Hr _]. apply in_combine_r in Hr. apply (wf_row _ _ _ _ W Hr).
Qed.
Lemma mean_rotate : forall k p q X i, wf k p X -> (i < p)%nat -> mean_of (column i (map (rotate p q) X)) = tvec p q (fun a => mean_of (column a X)) i.
Proof.
  intros k p q X i W Hi. rewrite (mean_column k p) by (apply rotate_wf; auto). unfold tvec.
  rewrite (mf_ext k _ (fun r => sumn p (fun a => mget X r a * q a i))) by (intros r Hr; apply (rotate_cell k p); auto).
  rewrite mf_comb. apply sumn_ext. intros a Ha. rewrite (mean_column k p) by auto. ring.
Qed.
Lemma cov_rotate : forall k p q X i j, wf k p X -> (0 < k)%nat -> (i < p)%nat -> (j < p)%nat ->
  cov_of (column i (map (rotate p q) X)) (column j (map (rotate p q) X)) = conj p q (fun a b => cov_of (column a X) (column b X)) i j.
Proof.
  intros k p q X i j W Hk Hi Hj. apply (cov_mix k p p X (map (rotate p q) X) (fun _ => 0) q W (rotate_wf k p q X W) Hk); auto.
  intros r c Hr Hc. rewrite (rotate_cell k p) by auto. apply sumn_ext. intros; ring.
Qed.

Section Kernels.
  Variables (n p : nat) (q : fmat) (X : list (list R)).
  Hypothesis Hq : orthonormal p p q.
  Hypothesis W : wf n p X.
  Hypothesis Hn : (0 < n)%nat.
  Let Z := map (rotate p q) X.

  Lemma between_rotate : forall labels used i j, (i < p)%nat -> (j < p)%nat -> between labels used Z i j = conj p q (between labels used X) i j.
  Proof.
    intros labels used i j Hi Hj. unfold between. rewrite conj_list. f_equal. apply map_ext. intros a. unfold Z. rewrite slice_map.
    rewrite !(mean_rotate (length (slice labels X a)) p q) by first [apply (slice_wf n); auto|auto].
    rewrite (conj_ext p q _ (fun x y => fraction labels a * (mean_of (column x (slice labels X a)) * mean_of (column y (slice labels X a))))) by (intros x y _ _; ring).
    rewrite conj_scal, conj_outer. ring.
  Qed.
  Lemma within_rotate : forall labels a i j, (i < p)%nat -> (j < p)%nat -> within labels Z a i j = conj p q (within labels X a) i j.
  Proof.
    intros labels a i j Hi Hj. unfold within, Z. rewrite slice_map, map_length. destruct (1 <? length (slice labels X a))%nat eqn:E.
    - apply Nat.ltb_lt in E. apply (cov_rotate (length (slice labels X a))); auto; [apply (slice_wf n); auto|lia].
    - symmetry. apply conj_delta; auto.
  Qed.
  Lemma save_rotate : forall labels used i j, (i < p)%nat -> (j < p)%nat -> average_variance labels used Z p i j = conj p q (average_variance labels used X p) i j.
  Proof.
    intros labels used i j Hi Hj. unfold average_variance. rewrite conj_list. f_equal. apply map_ext. intros a. rewrite conj_scal. f_equal. change sum_to with sumn.
    change (fmm p (fun i b => within labels Z a i b - delta i b) (fun b j => within labels Z a b j - delta b j) i j = conj p q (fmm p (fun i b => within labels X a i b - delta i b) (fun b j => within labels X a b j - delta b j)) i j).
    rewrite conj_prod by auto.
    assert (HD : feq p p (fun i b => within labels Z a i b - delta i b) (conj p q (fun i b => within labels X a i b - delta i b))).
    { intros x y Hx Hy. rewrite conj_minus, (within_rotate labels a x y), (conj_delta p q Hq x y) by auto. reflexivity. }
    rewrite (fmm_l p p p _ _ _ HD i j Hi Hj). apply (fmm_r p p p); auto.
  Qed.
  Lemma second_rotate : forall labels a i j, (i < p)%nat -> (j < p)%nat -> second_moment labels Z a i j = conj p q (second_moment labels X a) i j.
  Proof.
    intros labels a i j Hi Hj. unfold second_moment. rewrite (conj_plus p q (within labels X a) (fun i j => mean_of (column i (slice labels X a)) * mean_of (column j (slice labels X a)))).
    rewrite conj_outer, within_rotate by auto. f_equal. unfold Z. rewrite slice_map. rewrite !(mean_rotate (length (slice labels X a)) p q) by first [apply (slice_wf n); auto|auto]. reflexivity.
  Qed.
  Lemma dr_rotate : forall labels used i j, (i < p)%nat -> (j < p)%nat -> directional labels used Z p i j = conj p q (directional labels used X p) i j.
  Proof.
    intros labels used i j Hi Hj. unfold directional. change sum_to with sumn.
    rewrite (conj_ext p q _ (fun i j => ((2 * sum_of (map (fun a => fraction labels a * fmm p (second_moment labels X a) (second_moment labels X a) i j) used) +
      2 * fmm p (between labels used X) (between labels used X) i j) + (2 * ftr p (between labels used X)) * between labels used X i j) - 2 * delta i j)) by (intros x y _ _; reflexivity).
    rewrite (conj_minus p q _ (fun i j => 2 * delta i j)), conj_scal, (conj_delta p q Hq i j Hi Hj).
    rewrite (conj_plus p q _ (fun i j => 2 * ftr p (between labels used X) * between labels used X i j)), conj_scal.
    rewrite (conj_plus p q _ (fun i j => 2 * fmm p (between labels used X) (between labels used X) i j)), !conj_scal.
    rewrite conj_list.
    assert (HB : feq p p (between labels used Z) (conj p q (between labels used X))) by (intros x y Hx Hy; apply between_rotate; auto).
    f_equal. f_equal; [f_equal; f_equal|].
    - f_equal. apply map_ext. intros a. rewrite conj_scal. f_equal.
      change (fmm p (second_moment labels Z a) (second_moment labels Z a) i j = conj p q (fmm p (second_moment labels X a) (second_moment labels X a)) i j).
      rewrite conj_prod by auto.
      assert (HS : feq p p (second_moment labels Z a) (conj p q (second_moment labels X a))) by (intros x y Hx Hy; apply second_rotate; auto).
      rewrite (fmm_l p p p _ _ _ HS i j Hi Hj). apply (fmm_r p p p); auto.
    - rewrite conj_prod by auto. change (fmm p (between labels used Z) (between labels used Z) i j = fmm p (conj p q (between labels used X)) (conj p q (between labels used X)) i j).
      rewrite (fmm_l p p p _ _ _ HB i j Hi Hj). apply (fmm_r p p p); auto.
    - rewrite <- (conj_trace p q Hq (between labels used X)). change (sumn p (fun b => between labels used Z b b)) with (ftr p (between labels used Z)).
      rewrite (ftr_ext p _ _ HB), (HB i j Hi Hj). reflexivity.
  Qed.
  Lemma phd_rotate : forall y i j, (i < p)%nat -> (j < p)%nat -> response_weighted Z y i j = conj p q (response_weighted X y) i j.
  Proof.
    intros y i j Hi Hj. unfold response_weighted. change sum_to with sumn. change cell with (mget (A := R)). unfold Z. rewrite map_length, (wf_length _ _ _ W).
    rewrite (conj_ext p q _ (fun i j => / INR n * sumn n (fun r => (nth r y 0 - mean_of y) * (mget X r i * mget X r j)))).
    2:{ intros a b _ _. unfold Rdiv. rewrite Rmult_comm. f_equal. apply sumn_ext. intros; ring. }
    rewrite conj_scal, conj_sumn. unfold Rdiv. rewrite Rmult_comm. f_equal. apply sumn_ext. intros r Hr. rewrite conj_scal, conj_outer, !(rotate_cell n p) by auto. rewrite Rmult_assoc. f_equal.
    f_equal; unfold tvec; apply sumn_ext; intros; ring.
  Qed.
  Lemma iht_rotate : forall y i j, length y = n -> (i < p)%nat -> (j < p)%nat -> iterated p y Z i j = conj p q (iterated p y X) i j.
  Proof.
    intros y i j Ly Hi Hj. unfold iterated, krylov. change sum_to with sumn. rewrite conj_sumn. apply sumn_ext. intros t _. rewrite conj_outer.
    assert (HC : forall a, (a < p)%nat -> nth a (cov_with p Z y) 0 = tvec p q (fun b => nth b (cov_with p X y) 0) a).
    { intros a Ha. unfold cov_with. rewrite (nth_map_lt _ _ _ 0%nat), seq_nth by (try rewrite seq_length; auto). cbn [Nat.add]. unfold tvec.
      assert (HY : wf n 1 (map (fun v => [v]) y)).
      { split; [rewrite map_length; auto|]. apply Forall_forall. intros r Hr. apply in_map_iff in Hr as [v [<- _]]. reflexivity. }
      assert (EY : y = column 0 (map (fun v => [v]) y)) by (unfold column; rewrite map_map; cbn; rewrite map_id; reflexivity).
      assert (G : forall V c, wf n p V -> cov_of (column c V) y = covf n (fun r => mget V r c) (fun r => nth r y 0)).
      { intros V c WV. unfold cov_of, covf. assert (L : length (column c V) = n) by (unfold column; rewrite map_length; apply (wf_length _ _ _ WV)). rewrite L. f_equal.
        rewrite (mean_column n p) by auto. replace (mean_of y) with (mf n (fun r => nth r y 0)) by (unfold mean_of, mf; rewrite Ly, sum_of_vsum, vsum_sumn, Ly; reflexivity).
        rewrite sum_of_vsum, vsum_sumn, map_length, combine_length, L, Ly, Nat.min_id. apply sumn_ext. intros r Hr.
        rewrite (nth_map_lt _ _ _ (0, 0)) by (rewrite combine_length, L, Ly; lia). rewrite combine_nth by (rewrite L, Ly; auto). cbn [fst snd]. rewrite !nth_column. reflexivity. }
      rewrite G by (apply rotate_wf; auto). rewrite (covf_ext n _ (fun r => sumn p (fun b => mget X r b * q b a)) _ (fun r => nth r y 0)) by (auto; intros r Hr; apply (rotate_cell n p); auto).
      rewrite covf_comb_l. apply sumn_ext. intros b Hb. rewrite (nth_map_lt _ _ _ 0%nat), seq_nth by (try rewrite seq_length; auto). cbn [Nat.add]. rewrite G by auto. reflexivity. }
    assert (HM : forall a b, (a < p)%nat -> (b < p)%nat -> cell (covariance_matrix p Z) a b = conj p q (cell (covariance_matrix p X)) a b).
    { intros a b Ha Hb. unfold covariance_matrix. pose proof (fun f => proj2 (rep_table p p f)) as HT. unfold matrix_of. change cell with (mget (A := R)). rewrite HT by auto.
      unfold Z. rewrite (cov_rotate n p) by auto. apply conj_ext. intros x y' Hx Hy. rewrite HT by auto. reflexivity. }
    assert (HP : forall t a, (a < p)%nat -> nth a (power_times p (covariance_matrix p Z) t (cov_with p Z y)) 0 = tvec p q (fun b => nth b (power_times p (covariance_matrix p X) t (cov_with p X y)) 0) a).
    { clear t. induction t as [|t IH]; intros a Ha; [apply HC; auto|]. cbn [power_times]. rewrite (nth_map_lt _ _ _ 0%nat), seq_nth by (try rewrite seq_length; auto). cbn [Nat.add]. change sum_to with sumn.
      set (s := power_times p (covariance_matrix p X) t (cov_with p X y)) in *. set (s' := power_times p (covariance_matrix p Z) t (cov_with p Z y)) in *.
      rewrite (sumn_ext p _ (fun b => conj p q (cell (covariance_matrix p X)) a b * tvec p q (fun e => nth e s 0) b)) by (intros b Hb; rewrite HM, IH by auto; reflexivity).
      rewrite (sumn_ext p _ (fun b => fmm p (ft q) (fmm p (cell (covariance_matrix p X)) q) a b * tvec p q (fun e => nth e s 0) b)) by (intros b Hb; rewrite conj_mm; reflexivity).
      change (fmm p (fmm p (ft q) (fmm p (cell (covariance_matrix p X)) q)) (fun b _ => tvec p q (fun e => nth e s 0) b) a 0%nat = tvec p q (fun b => nth b (map (fun i => sumn p (fun a => cell (covariance_matrix p X) i a * nth a s 0)) (seq 0 p)) 0) a).
      rewrite fmm_assoc. unfold tvec at 2. unfold fmm at 1. apply sumn_ext. intros b Hb. unfold ft. f_equal. rewrite fmm_assoc. rewrite (nth_map_lt _ _ _ 0%nat), seq_nth by (try rewrite seq_length; auto). cbn [Nat.add].
      unfold fmm at 1. apply sumn_ext. intros e He. f_equal. apply (tvec_back p q Hq (fun e => nth e s 0)); auto. }
    rewrite !HP by auto. reflexivity.
  Qed.
End Kernels.
