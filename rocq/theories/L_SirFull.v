(** SIR with enough directions keeps every difference between slice means *)
From Coq Require Import Reals List Arith Bool Lia Lra Psatz.
Import List. Import ListNotations.
From Verif Require Import Num Err Vec VecR L_Mat L_Lin L_Matmul L_Stats M_Utils M_Preproc M_SdrUtils S_Stats S_Regress S_Sudire S_Best
  L_SdrMat L_SdrKer L_SdrEig L_SdrPow L_SdrMeth L_SdrFit2 L_SdrCov L_EqMat L_Pca L_Pca2 L_LowRank L_Best.
Open Scope R_scope.

(** a vector of R^k orthogonal to k orthonormal vectors is zero *)
Lemma complete_zero : forall k (h : nat -> nat -> R) x, orthonormal k k h -> (forall a, (a < k)%nat -> sumn k (fun s => h s a * x s) = 0) -> forall s, (s < k)%nat -> x s = 0.
Proof.
  intros k h x Ho Hx s Hs. pose proof (square_orthonormal k h Ho) as Hr. rewrite <- (sumn_delta_l k s x Hs).
  rewrite (sumn_ext k _ (fun t => sumn k (fun a => h s a * (h t a * x t)))).
  - rewrite sumn_exchange. apply sumn_zero. intros a Ha. rewrite sumn_scal, Hx by exact Ha. ring.
  - intros t Ht. rewrite <- (Hr s t Hs Ht). unfold fmm, ft. rewrite <- sumn_scal_r. apply sumn_ext. intros; ring.
Qed.

Lemma cov_two_columns : forall n p q X Y i j, wf n p X -> wf n q Y -> cov_of (column i X) (column j Y) = covf n (fun r => mget X r i) (fun r => mget Y r j).
Proof.
  intros n p q X Y i j W W'. unfold cov_of, covf. assert (L : length (column i X) = n) by (unfold column; rewrite map_length; apply (wf_length _ _ _ W)).
  assert (L' : length (column j Y) = n) by (unfold column; rewrite map_length; apply (wf_length _ _ _ W')).
  rewrite L. f_equal. rewrite (mean_column n p), (mean_column n q) by auto.
  generalize (mf n (fun r => mget X r i)) (mf n (fun r => mget Y r j)). intros a b.
  rewrite sum_of_vsum, vsum_sumn, map_length, combine_length, L, L', Nat.min_id. apply sumn_ext. intros r Hr.
  rewrite (nth_map_lt _ _ _ (0, 0)) by (rewrite combine_length, L, L'; lia). rewrite combine_nth by (rewrite L, L'; auto). cbn [fst snd]. rewrite !nth_column. reflexivity.
Qed.
Section Rank.
  Variables (p k d r : nat) (g e w : nat -> nat -> R) (K : nat -> nat -> R) (mu : nat -> R).
  Hypothesis HK : forall i j, (i < p)%nat -> (j < p)%nat -> K i j = sumn k (fun s => g s i * g s j).
  Hypothesis Hw : orthonormal_fun p d w.
  Hypothesis He : forall a j, (a < d)%nat -> (j < p)%nat -> ap p K (w a) j = mu a * w a j.
  Hypothesis Hm : forall c u, (c < d)%nat -> (forall a, (a < c)%nat -> ip p u (w a) = 0) -> qf p K u <= mu c * ip p u u.
  (** r orthonormal vectors of R^k annihilate the g s *)
  Hypothesis Ho : orthonormal_fun k r e.
  Hypothesis Hg : forall b i, (b < r)%nat -> (i < p)%nat -> sumn k (fun s => e b s * g s i) = 0.
  Hypothesis Hr : (r <= k)%nat.
  Hypothesis Hk : (k <= d + r)%nat.

  Lemma ap_g : forall v j, (j < p)%nat -> ap p K v j = sumn k (fun s => g s j * ip p (g s) v).
  Proof.
    intros v j Hj. unfold ap, ip. rewrite (sumn_ext p _ (fun i => sumn k (fun s => g s j * (g s i * v i)))).
    - rewrite sumn_exchange. apply sumn_ext. intros s Hs. apply sumn_scal.
    - intros i Hi. rewrite HK by auto. rewrite <- sumn_scal_r. apply sumn_ext. intros; ring.
  Qed.
  Lemma bil_g : forall u v, ip p u (ap p K v) = sumn k (fun s => ip p (g s) u * ip p (g s) v).
  Proof.
    intros u v. unfold ip at 1. rewrite (sumn_ext p _ (fun j => sumn k (fun s => (g s j * u j) * ip p (g s) v))).
    - rewrite sumn_exchange. apply sumn_ext. intros s Hs. rewrite sumn_scal_r. reflexivity.
    - intros j Hj. rewrite ap_g by exact Hj. rewrite <- sumn_scal. apply sumn_ext. intros; ring.
  Qed.
  Lemma Ksym : forall i j, (i < p)%nat -> (j < p)%nat -> K i j = K j i.
  Proof. intros i j Hi Hj. rewrite !HK by auto. apply sumn_ext. intros; ring. Qed.
  Lemma e_g : forall b u, (b < r)%nat -> sumn k (fun s => e b s * ip p (g s) u) = 0.
  Proof.
    intros b u Hb. rewrite (sumn_ext k _ (fun s => sumn p (fun i => (e b s * g s i) * u i))).
    - rewrite sumn_exchange. apply sumn_zero. intros i Hi. rewrite sumn_scal_r, Hg by auto. ring.
    - intros s Hs. unfold ip. rewrite <- sumn_scal. apply sumn_ext. intros; ring.
  Qed.
  Lemma rank_zero : forall u, (forall a, (a < d)%nat -> ip p u (w a) = 0) -> forall s, (s < k)%nat -> ip p (g s) u = 0.
  Proof.
    intros u Hu. set (L := (k - r)%nat).
    assert (Hpos : (forall a, (a < L)%nat -> 0 < mu a) -> forall s, (s < k)%nat -> ip p (g s) u = 0).
    { intros Hmu. set (h := fun s a => if (a <? L)%nat then ip p (g s) (w a) / sqrt (mu a) else e (a - L)%nat s).
      apply (complete_zero k h (fun s => ip p (g s) u)).
      - intros a b Ha Hb. unfold fmm, ft, h. destruct (Nat.ltb_spec a L) as [La|La], (Nat.ltb_spec b L) as [Lb|Lb].
        + pose proof (Hmu a La). pose proof (Hmu b Lb). rewrite (sumn_ext k _ (fun s => ip p (g s) (w a) * ip p (g s) (w b) * (/ sqrt (mu a) * / sqrt (mu b)))) by (intros; unfold Rdiv; ring).
          rewrite sumn_scal_r, <- bil_g. rewrite (ip_ext p _ _ (w a) (fun j => mu b * w b j)) by (auto; intros; apply He; auto; lia).
          assert (E : ip p (w a) (fun j => mu b * w b j) = mu b * delta a b) by (change (delta a b) with (if (a =? b)%nat then 1 else 0); rewrite <- (Hw a b) by lia; unfold ip; rewrite <- sumn_scal; apply sumn_ext; intros; ring).
          rewrite E. unfold delta. destruct (Nat.eqb_spec a b) as [->|]; [|ring]. rewrite Rmult_1_r. pose proof (sqrt_lt_R0 _ H). pose proof (sqrt_sqrt (mu b) ltac:(lra)) as Q. rewrite <- Q at 1. field. lra.
        + rewrite (sumn_ext k _ (fun s => / sqrt (mu a) * (e (b - L)%nat s * ip p (g s) (w a)))) by (intros; unfold Rdiv; ring). rewrite sumn_scal, e_g by lia. unfold delta. destruct (Nat.eqb_spec a b); [lia|ring].
        + rewrite (sumn_ext k _ (fun s => / sqrt (mu b) * (e (a - L)%nat s * ip p (g s) (w b)))) by (intros; unfold Rdiv; ring). rewrite sumn_scal, e_g by lia. unfold delta. destruct (Nat.eqb_spec a b); [lia|ring].
        + change (ip k (e (a - L)%nat) (e (b - L)%nat) = delta a b). rewrite (Ho (a - L)%nat (b - L)%nat) by lia. unfold delta. destruct (Nat.eqb_spec (a - L) (b - L)), (Nat.eqb_spec a b); try lia; reflexivity.
      - intros a Ha. unfold h. destruct (Nat.ltb_spec a L) as [La|La]; [|apply e_g; lia].
        rewrite (sumn_ext k _ (fun s => / sqrt (mu a) * (ip p (g s) u * ip p (g s) (w a)))) by (intros; unfold Rdiv; ring). rewrite sumn_scal, <- bil_g.
        rewrite (ip_ext p _ _ u (fun j => mu a * w a j)) by (auto; intros; apply He; auto; lia).
        assert (E : ip p u (fun j => mu a * w a j) = mu a * ip p u (w a)) by (unfold ip; rewrite <- sumn_scal; apply sumn_ext; intros; ring). rewrite E, Hu by lia. ring. }
    destruct (Nat.eq_dec L 0) as [E0|N0]; [apply Hpos; intros; lia|].
    destruct (Rlt_dec 0 (mu (L - 1)%nat)) as [P|N].
    - apply Hpos. intros a Ha. eapply Rlt_le_trans; [exact P|]. apply (s_decr p d K w mu); auto; try lia.
    - intros s Hs. assert (Q : qf p K u <= 0).
      { eapply Rle_trans; [apply (Hm (L - 1)%nat); [lia|intros; apply Hu; lia]|]. pose proof (ip_nonneg p u). nra. }
      unfold qf in Q. rewrite bil_g in Q.
      assert (Z : sumn k (fun s => ip p (g s) u * ip p (g s) u) = 0) by (apply Rle_antisym; [exact Q|apply sumn_nonneg; intros; apply Rle_0_sqr]).
      pose proof (sumn_zero_inv k _ ltac:(intros; apply Rle_0_sqr) Z s Hs) as H. cbv beta in H. apply Rmult_integral in H. tauto.
  Qed.
End Rank.

(** ** slices *)
Lemma sum_pick : forall (D : list R) l x, NoDup D -> In l D -> sum_of (map (fun a => if Req_EM_T l a then x else 0) D) = x.
Proof.
  induction D as [|b D IH]; intros l x Hd Hi; [destruct Hi|]. inversion Hd; subst. cbn [map sum_of fold_right]. fold (sum_of (map (fun a => if Req_EM_T l a then x else 0) D)).
  destruct (Req_EM_T l b) as [->|N].
  - rewrite (map_ext_in _ (fun _ => 0)); [|intros a Ha; destruct (Req_EM_T b a); [subst; contradiction|reflexivity]].
    assert (Z : forall D : list R, sum_of (map (fun _ => 0) D) = 0) by (induction D0 as [|? D0 IH0]; [reflexivity|cbn; fold (sum_of (map (fun _ => 0) D0)); rewrite IH0; ring]). rewrite Z. ring.
  - rewrite IH; [ring|auto|]. destruct Hi; [congruence|auto].
Qed.
Lemma sum_slices : forall D labels t, NoDup D -> length labels = length t -> (forall l, In l labels -> In l D) -> sum_of (map (fun a => sum_of (slice_values labels t a)) D) = sum_of t.
Proof.
  intros D labels. induction labels as [|l labels IH]; intros t Hd Hl Hin.
  - destruct t; [|discriminate]. cbn. induction D as [|b D IHD]; [reflexivity|]. cbn. inversion Hd; subst. unfold sum_of in IHD. rewrite IHD; auto; [ring|intros ? []].
  - destruct t as [|x t]; [discriminate|]. cbn [sum_of fold_right]. fold (sum_of t).
    transitivity (sum_of (map (fun a => if Req_EM_T l a then x else 0) D) + sum_of (map (fun a => sum_of (slice_values labels t a)) D)).
    2:{ rewrite (sum_pick D l x Hd ltac:(apply Hin; left; auto)). rewrite (IH t Hd ltac:(cbn in Hl; lia) ltac:(intros; apply Hin; right; auto)). reflexivity. }
    clear. induction D as [|b D IHD]; [cbn; ring|]. cbn [map sum_of fold_right]. fold (sum_of (map (fun a => sum_of (slice_values (l :: labels) (x :: t) a)) D)) (sum_of (map (fun a => if Req_EM_T l a then x else 0) D)) (sum_of (map (fun a => sum_of (slice_values labels t a)) D)).
    rewrite IHD. unfold slice_values at 1. cbn [combine filter fst]. destruct (Req_EM_T l b); cbn [map snd sum_of fold_right]; fold (sum_of (slice_values labels t b)); [|unfold slice_values; ring]. unfold slice_values, sum_of. ring.
Qed.
Lemma slice_count : forall labels t a, length labels = length t -> length (slice_values labels t a) = length (filter (fun v => if Req_EM_T v a then true else false) labels).
Proof.
  unfold slice_values. induction labels as [|l labels IH]; intros [|x t] a Hl; try discriminate; [reflexivity|]. cbn in *. destruct (Req_EM_T l a); cbn; rewrite IH by lia; reflexivity.
Qed.
Lemma fraction_mean : forall labels t a, length labels = length t -> fraction labels a * mean_of (slice_values labels t a) = sum_of (slice_values labels t a) / INR (length t).
Proof.
  intros labels t a Hl. unfold fraction, mean_of. rewrite <- (slice_count labels t a Hl), Hl. destruct (slice_values labels t a) as [|x s] eqn:E; [cbn; unfold Rdiv; ring|].
  destruct t as [|b t]; [destruct labels; discriminate|]. field. split; apply not_0_INR; discriminate.
Qed.
Lemma sum_of_scal : forall (T : Type) (D : list T) f c, sum_of (map (fun a => f a * c) D) = sum_of (map f D) * c.
Proof. intros T D f c. induction D as [|b D IH]; [cbn; ring|]. cbn [map sum_of fold_right]. fold (sum_of (map (fun a => f a * c) D)) (sum_of (map f D)). rewrite IH. ring. Qed.
Lemma mean_slices : forall D labels t, NoDup D -> length labels = length t -> (forall l, In l labels -> In l D) -> sum_of (map (fun a => fraction labels a * mean_of (slice_values labels t a)) D) = mean_of t.
Proof.
  intros D labels t Hd Hl Hin. rewrite (map_ext _ (fun a => sum_of (slice_values labels t a) * / INR (length t))) by (intros; rewrite fraction_mean by exact Hl; reflexivity).
  rewrite sum_of_scal, sum_slices by auto. reflexivity.
Qed.
Lemma fractions_one : forall D labels, NoDup D -> labels <> [] -> (forall l, In l labels -> In l D) -> sum_of (map (fraction labels) D) = 1.
Proof.
  intros D labels Hd Hn Hin. pose proof (mean_slices D labels (map (fun _ => 1) labels) Hd ltac:(rewrite map_length; reflexivity) Hin) as H.
  assert (M1 : forall l : list R, l <> [] -> Forall (fun x => x = 1) l -> mean_of l = 1).
  { intros l Hl F. unfold mean_of. assert (S1 : sum_of l = INR (length l)). { clear Hl. induction F as [|x l -> F IH]; [reflexivity|]. cbn [sum_of fold_right length]. fold (sum_of l). rewrite IH, S_INR. ring. }
    rewrite S1. field. apply not_0_INR. destruct l; [congruence|discriminate]. }
  assert (Fm : Forall (fun x => x = 1) (map (fun _ : R => 1) labels)) by (apply Forall_forall; intros x Hx; apply in_map_iff in Hx as (? & <- & _); reflexivity).
  rewrite (M1 (map (fun _ => 1) labels)) in H; [|destruct labels; [congruence|discriminate]|exact Fm].
  rewrite <- H. f_equal. apply map_ext. intros a. destruct (slice_values labels (map (fun _ => 1) labels) a) as [|x s] eqn:E.
  - unfold fraction. rewrite <- (slice_count labels (map (fun _ => 1) labels) a) by (rewrite map_length; reflexivity). rewrite E. cbn. unfold Rdiv. ring.
  - rewrite <- E. rewrite M1; [ring|rewrite E; discriminate|]. unfold slice_values. apply Forall_forall. intros z Hz. apply in_map_iff in Hz as ([q z'] & <- & Hz). apply filter_In in Hz as [Hz _]. apply in_combine_r in Hz. apply in_map_iff in Hz as (? & <- & _). reflexivity.
Qed.
Lemma fraction_pos : forall labels a, In a labels -> 0 < fraction labels a.
Proof.
  intros labels a Ha. unfold fraction. apply Rdiv_lt_0_compat; apply lt_0_INR.
  - destruct (filter _ labels) as [|x s] eqn:E; [|cbn; lia]. assert (In a []) as []. rewrite <- E. apply filter_In. split; [exact Ha|]. destruct (Req_EM_T a a); [reflexivity|congruence].
  - destruct labels; [destruct Ha|cbn; lia].
Qed.
Lemma sum_of_nth : forall (D : list R) f, sum_of (map f D) = sumn (length D) (fun s => f (nth s D 0)).
Proof.
  intros D f. change sumn with sum_to. unfold sum_to. f_equal. apply (nth_ext _ _ (f 0) (f 0)); [rewrite !map_length, seq_length; reflexivity|]. intros i Hi. rewrite map_length in Hi.
  rewrite map_nth. rewrite (nth_indep _ (f 0) (f (nth 0 D 0))) by (rewrite map_length, seq_length; exact Hi). rewrite (map_nth (fun s => f (nth s D 0))), seq_nth by exact Hi. reflexivity.
Qed.

Section Full.
  Variables (n p d k : nat) (X S Z V B : list (list R)) (labels used : list R).
  Hypothesis Hn : (2 <= n)%nat.
  Hypothesis HX : is_matrix n p X.
  Hypothesis HS : standardises p S (covariance_matrix p X).
  Hypothesis HZ : prepared_data n p X S Z true true.
  Hypothesis HV : leading_eigenvectors p (matrix_of p (between labels used Z)) d V.
  Hypothesis HB : back_transformed p d S V B true.
  Hypothesis HL : length labels = n.
  Hypothesis HU : forall a, In a used -> In a labels.
  Hypothesis Hu : length used = k.
  Hypothesis Hd : (k <= d)%nat \/ (p <= d)%nat \/ ((k <= d + 1)%nat /\ NoDup used /\ forall a, In a labels -> In a used).

  Local Notation g := (fun s i => sqrt (fraction labels (nth s used 0)) * mean_of (column i (slice labels Z (nth s used 0)))).
  Lemma between_g : forall i j, between labels used Z i j = sumn k (fun s => g s i * g s j).
  Proof.
    intros i j. unfold between. rewrite sum_of_nth, Hu. apply sumn_ext. intros s Hs. rewrite <- (sqrt_sqrt (fraction labels (nth s used 0))) at 1 by apply fraction_nonneg. ring.
  Qed.
  Lemma col_slice : forall i a, column i (slice labels Z a) = slice_values labels (column i Z) a.
  Proof. intros i a. unfold slice. unfold column at 1. rewrite slice_values_map. reflexivity. Qed.
  Lemma z_mean : forall i, (i < p)%nat -> mean_of (column i Z) = 0.
  Proof.
    intros i Hi. pose proof (proj1 HZ) as WZ. rewrite (mean_column n p Z i WZ). rewrite (mf_ext n _ (fun r => sumn p (fun a => (cell X r a - mean_of (column a X)) * cell S a i))) by (intros r Hr; apply (z_val n p X S Z HZ r i Hr Hi)).
    rewrite mf_comb. apply sumn_zero. intros a Ha. rewrite (mean_column n p X a HX). rewrite (mf_shift n) by lia. change (fun r => mget X r a) with (fun r => cell X r a). ring.
  Qed.
  Lemma orth_zero : forall u, (forall c, (c < d)%nat -> ip p u (fun j => cell V j c) = 0) -> forall s, (s < k)%nat -> ip p (g s) u = 0.
  Proof.
    intros u Ho. destruct (eigen_fun p _ d V HV) as (mu & F1 & F2 & F3).
    assert (HK : forall i j, (i < p)%nat -> (j < p)%nat -> between labels used Z i j = sumn k (fun s => g s i * g s j)) by (intros; apply between_g).
    destruct Hd as [H1|[H1|(H1 & Hnd & Hall)]].
    - apply (rank_zero p k d 0 g (fun _ _ => 0) (fun c j => cell V j c) (between labels used Z) mu); auto; try lia; intros ? ? ?; lia.
    - intros s Hs. apply ip_zero_r. apply (complete_zero p (fun j c => cell V j c)).
      + intros a b Ha Hb. unfold fmm, ft. apply F1; lia.
      + intros a Ha. rewrite <- (Ho a ltac:(lia)). unfold ip. apply sumn_ext. intros; ring.
    - destruct (Nat.eq_dec k 0) as [E0|N0]; [intros; lia|].
      apply (rank_zero p k d 1 g (fun _ s => sqrt (fraction labels (nth s used 0))) (fun c j => cell V j c) (between labels used Z) mu); auto; try lia.
      + intros a b Ha Hb. replace a with 0%nat by lia. replace b with 0%nat by lia. cbn [Nat.eqb]. unfold ip. rewrite (sumn_ext k _ (fun s => fraction labels (nth s used 0))) by (intros; apply sqrt_sqrt, fraction_nonneg).
        rewrite <- Hu, <- sum_of_nth. apply fractions_one; auto. intros ->. cbn in HL. lia.
      + intros b i _ Hi. rewrite (sumn_ext k _ (fun s => fraction labels (nth s used 0) * mean_of (slice_values labels (column i Z) (nth s used 0)))).
        * rewrite <- Hu. rewrite <- (sum_of_nth used (fun a => fraction labels a * mean_of (slice_values labels (column i Z) a))). rewrite mean_slices; auto; [apply z_mean; exact Hi|]. unfold column. rewrite map_length. rewrite HL. symmetry. apply (proj1 HZ).
        * intros s Hs. rewrite <- col_slice. rewrite <- Rmult_assoc, sqrt_sqrt by apply fraction_nonneg. reflexivity.
  Qed.
  (** a projection uncorrelated with all scores has the same mean in every slice *)
  Lemma full : forall T U TU, scores_along n p d X B T -> scores_along n p 1 X U TU -> (forall c, (c < d)%nat -> cov_of (column 0 TU) (column c T) = 0) ->
    forall a, In a used -> mean_of (slice_values labels (column 0 TU) a) = mean_of (column 0 TU).
  Proof.
    intros T U TU HT HTU Hc a Ha. set (q := up p X S (fun a => cell U a 0)).
    pose proof (proj1 HZ) as WZ. destruct HB as [WB HBc].
    assert (Hw : forall c r, (c < d)%nat -> (r < n)%nat -> ap p (cell Z) (fun j => cell V j c) r = nth r (column c T) 0 - mean_of (column c T)).
    { intros c r Hcd Hr. rewrite (centred n p X HX d B T) by auto. rewrite (zap n p X S Z HZ) by auto. apply cx_ext. intros b Hb. rewrite (HBc b c Hb Hcd). reflexivity. }
    assert (Hq : forall r, (r < n)%nat -> ap p (cell Z) q r = nth r (column 0 TU) 0 - mean_of (column 0 TU)).
    { intros r Hr. rewrite (centred n p X HX 1 U TU) by (auto; lia). rewrite (zap n p X S Z HZ) by auto. apply cx_ext. intros b Hb. unfold q. rewrite (up_val p X S HS) by auto. reflexivity. }
    destruct HT as (_ & WT & _). destruct HTU as (_ & WTU & _).
    assert (Ho : forall c, (c < d)%nat -> ip p q (fun j => cell V j c) = 0).
    { intros c Hcd. rewrite <- (Hc c Hcd). rewrite <- (proj_cov n p X S Z Hn HX HS HZ). rewrite (cov_two_columns n 1 d TU T 0 c WTU WT).
      rewrite (covf_ext n _ (fun r => mget TU r 0 - mean_of (column 0 TU)) _ (fun r => mget T r c - mean_of (column c T))).
      - rewrite covf_shift by lia. reflexivity.
      - intros r Hr. etransitivity; [apply (Hq r Hr)|]. rewrite nth_column. reflexivity.
      - intros r Hr. etransitivity; [apply (Hw c r Hcd Hr)|]. rewrite nth_column. reflexivity. }
    destruct (In_nth _ _ 0 Ha) as (s & Hs & Es). rewrite Hu in Hs. pose proof (orth_zero q Ho s Hs) as E. unfold ip in E. rewrite Es in E.
    rewrite (sumn_ext p _ (fun i => sqrt (fraction labels a) * (q i * mean_of (column i (slice labels Z a))))) in E by (intros; ring). rewrite sumn_scal in E.
    rewrite (slice_mean n p labels Z WZ HL q (column 0 TU) a) in E; auto.
    - apply Rmult_integral in E as [E|E]; [|lra]. pose proof (sqrt_lt_R0 _ (fraction_pos labels a (HU a Ha))). lra.
    - unfold column. rewrite map_length. apply WTU.
  Qed.
End Full.

(** ** the slice means of every variable follow from those of the scores *)
Definition idx (labels : list R) (n : nat) (a : R) : list nat := map snd (filter (fun vr => if Req_EM_T (fst vr) a then true else false) (combine labels (seq 0 n))).
Lemma slice_idx : forall n q (M : list (list R)) c labels a, wf n q M -> slice_values labels (column c M) a = map (fun r => mget M r c) (idx labels n a).
Proof.
  intros n q M c labels a W. unfold idx. rewrite slice_values_map. f_equal. apply (nth_ext _ _ 0 0).
  - unfold column. rewrite !map_length, seq_length. apply (wf_length _ _ _ W).
  - intros i Hi. assert (Hi' : (i < n)%nat) by (unfold column in Hi; rewrite map_length, (wf_length _ _ _ W) in Hi; exact Hi).
    rewrite (nth_map_lt _ _ _ 0%nat) by (rewrite seq_length; exact Hi'). rewrite seq_nth by exact Hi'. apply nth_column.
Qed.
Lemma idx_lt : forall labels n a r, In r (idx labels n a) -> (r < n)%nat.
Proof. intros labels n a r Hr. unfold idx in Hr. apply in_map_iff in Hr as ([l q] & <- & Hr). apply filter_In in Hr as [Hr _]. apply in_combine_r in Hr. apply in_seq in Hr. cbn. lia. Qed.
Lemma mean_lin : forall (L : list nat) d (f : nat -> R) (h : nat -> nat -> R) (c : nat -> R),
  mean_of (map (fun r => f r - sumn d (fun k => c k * h k r)) L) = mean_of (map f L) - sumn d (fun k => c k * mean_of (map (h k) L)).
Proof.
  intros L d f h c. unfold mean_of. rewrite !map_length. rewrite (sumn_ext d _ (fun k => c k * sum_of (map (h k) L) * / INR (length L))) by (intros; rewrite map_length; unfold Rdiv; ring).
  rewrite sumn_scal_r. unfold Rdiv. rewrite <- Rmult_minus_distr_r. f_equal. induction L as [|r L IH].
  - cbn. rewrite sumn_zero by (intros; ring). ring.
  - cbn [map sum_of fold_right]. fold (sum_of (map (fun r => f r - sumn d (fun k => c k * h k r)) L)) (sum_of (map f L)). rewrite IH.
    rewrite (sumn_ext d (fun k => c k * (h k r + _)) (fun k => c k * h k r + c k * sum_of (map (h k) L))) by (intros; fold (sum_of (map (h i) L)); ring). rewrite sumn_plus. ring.
Qed.
Lemma column_map : forall n q (M : list (list R)) c, wf n q M -> column c M = map (fun r => mget M r c) (seq 0 n).
Proof.
  intros n q M c W. apply (nth_ext _ _ 0 0); [unfold column; rewrite !map_length, seq_length; apply (wf_length _ _ _ W)|].
  intros i Hi. assert (Hi' : (i < n)%nat) by (unfold column in Hi; rewrite map_length, (wf_length _ _ _ W) in Hi; exact Hi).
  rewrite (nth_map_lt _ _ _ 0%nat) by (rewrite seq_length; exact Hi'). rewrite seq_nth by exact Hi'. apply nth_column.
Qed.
Lemma covf_lin : forall n d f (h : nat -> nat -> R) (c : nat -> R) x, covf n (fun r => f r - sumn d (fun k => c k * h k r)) x = covf n f x - sumn d (fun k => c k * covf n (h k) x).
Proof.
  intros n d f h c x.
  assert (E : forall f g, covf n (fun r => f r - g r) x = covf n f x - covf n g x).
  { intros f0 g0. unfold covf. assert (M : mf n (fun r => f0 r - g0 r) = mf n f0 - mf n g0) by (unfold mf; rewrite sumn_minus; unfold Rdiv; ring). rewrite M. unfold Rdiv. rewrite <- Rmult_minus_distr_r. f_equal. rewrite <- sumn_minus. apply sumn_ext. intros; ring. }
  rewrite E. f_equal. rewrite (covf_ext n _ (fun r => sumn d (fun k => h k r * c k)) x x) by (auto; intros; apply sumn_ext; intros; ring).
  rewrite (covf_comb_l n d c (fun r k => h k r) x). reflexivity.
Qed.
Lemma reconstruct : forall n p d X B T labels used, (0 < p)%nat -> is_matrix n p X -> scores_along n p d X B T -> standard_scores d T ->
  (forall U TU, scores_along n p 1 X U TU -> (forall c, (c < d)%nat -> cov_of (column 0 TU) (column c T) = 0) ->
    forall a, In a used -> mean_of (slice_values labels (column 0 TU) a) = mean_of (column 0 TU)) ->
  forall j a, (j < p)%nat -> In a used ->
    mean_of (slice_values labels (column j X) a) - mean_of (column j X) =
    sum_to d (fun c => cov_of (column j X) (column c T) * (mean_of (slice_values labels (column c T) a) - mean_of (column c T))).
Proof.
  intros n p d X B T labels used Hp HX (WB & WT & HT) Hst Hfull j a Hj Ha. set (gm := fun c => cov_of (column j X) (column c T)).
  set (U := map (fun i => [delta i j - sumn d (fun c => gm c * cell B i c)]) (seq 0 p)). set (TU := matmul X U).
  assert (WU : wf p 1 U). { split; [unfold U; rewrite map_length, seq_length; reflexivity|]. unfold U. apply Forall_forall. intros row Hrow. apply in_map_iff in Hrow as (i & <- & _). reflexivity. }
  assert (CU : forall i, (i < p)%nat -> cell U i 0 = delta i j - sumn d (fun c => gm c * cell B i c)).
  { intros i Hi. unfold cell, U. rewrite (nth_map_lt _ _ _ 0%nat) by (rewrite seq_length; exact Hi). rewrite seq_nth by exact Hi. reflexivity. }
  destruct (rep_matmul n p 1 _ _ _ _ Hp (rep_self _ _ _ HX) (rep_self _ _ _ WU)) as [WTU HTU]. fold TU in WTU, HTU.
  assert (HS : scores_along n p 1 X U TU) by (split; [exact WU|]; split; [exact WTU|]; intros i c Hi Hc; exact (HTU i c Hi Hc)).
  assert (CT : forall r, (r < n)%nat -> mget TU r 0 = mget X r j - sumn d (fun c => gm c * mget T r c)).
  { intros r Hr. rewrite (HTU r 0%nat Hr ltac:(lia)). change (mget U) with (cell U). rewrite (sumn_ext p _ (fun i => mget X r i * delta i j - sumn d (fun c => gm c * (cell X r i * cell B i c)))).
    - rewrite sumn_minus, (sumn_delta_r p j (fun i => mget X r i) Hj). f_equal. rewrite sumn_exchange. apply sumn_ext. intros c Hc. rewrite sumn_scal. f_equal. symmetry. exact (HT r c Hr Hc).
    - intros i Hi. rewrite CU by exact Hi. rewrite Rmult_minus_distr_l. f_equal. rewrite <- sumn_scal. apply sumn_ext. intros; change (mget X r i) with (cell X r i); ring. }
  assert (H0 : forall c, (c < d)%nat -> cov_of (column 0 TU) (column c T) = 0).
  { intros c Hc. rewrite (cov_two_columns n 1 d TU T 0 c WTU WT). rewrite (covf_ext n _ (fun r => mget X r j - sumn d (fun k => gm k * mget T r k)) _ (fun r => mget T r c)) by auto.
    rewrite (covf_lin n d (fun r => mget X r j) (fun k r => mget T r k) gm). rewrite (sumn_ext d _ (fun k => gm k * delta k c)).
    - rewrite (sumn_delta_r d c gm Hc). unfold gm. rewrite (cov_two_columns n p d X T j c HX WT). ring.
    - intros k Hk. f_equal. rewrite <- (cov_columns n d T k c WT). apply Hst; auto. }
  pose proof (Hfull U TU HS H0 a Ha) as E.
  rewrite (slice_idx n 1 TU 0 labels a WTU) in E. rewrite (map_ext_in _ (fun r => mget X r j - sumn d (fun c => gm c * mget T r c))) in E by (intros r Hr; apply CT, (idx_lt _ _ _ _ Hr)).
  rewrite (mean_lin _ d (fun r => mget X r j) (fun c r => mget T r c) gm) in E.
  rewrite (column_map n 1 TU 0 WTU) in E. rewrite (map_ext_in (fun r => mget TU r 0) (fun r => mget X r j - sumn d (fun c => gm c * mget T r c))) in E by (intros r Hr; apply in_seq in Hr; apply CT; lia).
  rewrite (mean_lin _ d (fun r => mget X r j) (fun c r => mget T r c) gm) in E.
  rewrite <- (slice_idx n p X j labels a HX), <- (column_map n p X j HX) in E.
  change sum_to with sumn. rewrite (sumn_ext d _ (fun c => gm c * mean_of (slice_values labels (column c T) a) - gm c * mean_of (column c T))) by (intros; fold (gm i); ring). rewrite sumn_minus.
  rewrite (sumn_ext d (fun c => gm c * mean_of (slice_values labels (column c T) a)) (fun c => gm c * mean_of (map (fun r => mget T r c) (idx labels n a)))) by (intros; rewrite (slice_idx n d T _ labels a WT); reflexivity).
  rewrite (sumn_ext d (fun c => gm c * mean_of (column c T)) (fun c => gm c * mean_of (map (fun r => mget T r c) (seq 0 n)))) by (intros; rewrite (column_map n d T _ WT); reflexivity).
  lra.
Qed.
