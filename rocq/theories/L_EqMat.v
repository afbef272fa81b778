(** Matrices as functions of two indices: products, orthogonality, the leading
    eigenspace *)

From Coq Require Import Reals List Arith Bool Lra Lia.
Import ListNotations.
From Verif Require Import Num Vec VecR S_Stats S_Sudire L_SdrMat L_SdrEig.
Open Scope R_scope.

Definition fmat : Type := nat -> nat -> R.
Definition feq (p q : nat) (f g : fmat) : Prop := forall i j, (i < p)%nat -> (j < q)%nat -> f i j = g i j.
Definition fmm (k : nat) (f g : fmat) : fmat := fun i j => sumn k (fun a => f i a * g a j).
Definition ft (f : fmat) : fmat := fun i j => f j i.
Definition ftr (p : nat) (f : fmat) : R := sumn p (fun i => f i i).

Lemma feq_refl : forall p q f, feq p q f f. Proof. intros p q f i j _ _. reflexivity. Qed.
Lemma feq_sym : forall p q f g, feq p q f g -> feq p q g f. Proof. intros p q f g H i j Hi Hj. symmetry. auto. Qed.
Lemma feq_trans : forall p q f g h, feq p q f g -> feq p q g h -> feq p q f h. Proof. intros p q f g h H1 H2 i j Hi Hj. rewrite H1 by auto. auto. Qed.
Lemma fmm_l : forall p k q f f' g, feq p k f f' -> feq p q (fmm k f g) (fmm k f' g).
Proof. intros p k q f f' g H i j Hi Hj. apply sumn_ext. intros a Ha. rewrite H by auto. reflexivity. Qed.
Lemma fmm_r : forall p k q f g g', feq k q g g' -> feq p q (fmm k f g) (fmm k f g').
Proof. intros p k q f g g' H i j Hi Hj. apply sumn_ext. intros a Ha. rewrite H by auto. reflexivity. Qed.
Lemma fmm_assoc : forall k l f g h i j, fmm l (fmm k f g) h i j = fmm k f (fmm l g h) i j.
Proof.
  intros. unfold fmm. rewrite (sumn_ext l _ (fun a => sumn k (fun b => f i b * g b a * h a j))) by (intros a Ha; rewrite <- sumn_scal_r; reflexivity).
  rewrite sumn_exchange. apply sumn_ext. intros b Hb. rewrite <- sumn_scal. apply sumn_ext. intros; ring.
Qed.
Lemma fassoc : forall p q k l f g h, feq p q (fmm l (fmm k f g) h) (fmm k f (fmm l g h)).
Proof. intros p q k l f g h i j _ _. apply fmm_assoc. Qed.
Lemma fassoc' : forall p q k l f g h, feq p q (fmm k f (fmm l g h)) (fmm l (fmm k f g) h).
Proof. intros. apply feq_sym, fassoc. Qed.
Lemma fid_l : forall p q f, feq p q (fmm p delta f) f.
Proof. intros p q f i j Hi Hj. unfold fmm. apply (sumn_delta_l p i (fun a => f a j)). auto. Qed.
Lemma fid_r : forall p q f, feq p q (fmm q f delta) f.
Proof. intros p q f i j Hi Hj. unfold fmm. apply (sumn_delta_r q j (fun a => f i a)). auto. Qed.
Lemma ft_mm : forall k f g i j, ft (fmm k f g) i j = fmm k (ft g) (ft f) i j.
Proof. intros. unfold ft, fmm. apply sumn_ext. intros; ring. Qed.
Lemma delta_sym : forall i j, delta i j = delta j i. Proof. intros. unfold delta. rewrite Nat.eqb_sym. reflexivity. Qed.
Lemma delta_same : forall i, delta i i = 1. Proof. intros. unfold delta. rewrite Nat.eqb_refl. reflexivity. Qed.
Lemma ftr_mm : forall p k f g, ftr p (fmm k f g) = ftr k (fmm p g f).
Proof. intros. unfold ftr, fmm. rewrite sumn_exchange. apply sumn_ext. intros a Ha. apply sumn_ext. intros; ring. Qed.
Lemma ftr_ext : forall p f g, feq p p f g -> ftr p f = ftr p g.
Proof. intros p f g H. apply sumn_ext. auto. Qed.
Lemma ftr_id : forall p, ftr p delta = INR p.
Proof. intros. unfold ftr. rewrite (sumn_ext p _ (fun _ => 1)) by (intros; apply delta_same). rewrite sumn_const. ring. Qed.

(** a sum of non-negative terms that vanishes *)
Lemma sumn_zero_inv : forall n f, (forall i, (i < n)%nat -> 0 <= f i) -> sumn n f = 0 -> forall i, (i < n)%nat -> f i = 0.
Proof.
  induction n as [|n IH]; intros f Hf H i Hi; [lia|]. rewrite sumn_S in H.
  pose proof (sumn_nonneg n f ltac:(intros; apply Hf; lia)). pose proof (Hf n ltac:(lia)).
  destruct (Nat.eq_dec i n) as [->|]; [lra|]. apply IH; [intros; apply Hf; lia|lra|lia].
Qed.
Lemma sumn_pos : forall n f k, (forall i, (i < n)%nat -> 0 <= f i) -> (k < n)%nat -> 0 < f k -> 0 < sumn n f.
Proof.
  intros n f k Hf Hk Hp. pose proof (sumn_nonneg n f Hf) as [H|H]; [auto|]. pose proof (sumn_zero_inv n f Hf (eq_sym H) k Hk). lra.
Qed.

(** A'A = I for a p x d matrix *)
Definition orthonormal (p d : nat) (f : fmat) : Prop := feq d d (fmm p (ft f) f) delta.

Section Projection.
  Variables (p d : nat) (f : fmat).
  Hypothesis Hf : orthonormal p d f.
  Definition rest : fmat := fun i j => delta i j - fmm d f (ft f) i j.
  Lemma rest_sym : forall i j, rest i j = rest j i.
  Proof. intros. unfold rest. rewrite delta_sym. f_equal. unfold fmm, ft. apply sumn_ext. intros; ring. Qed.
  (** the remainder is orthogonal to the columns *)
  Lemma rest_orth : feq d p (fmm p (ft f) rest) (fun _ _ => 0).
  Proof.
    intros i j Hi Hj. unfold fmm at 1, rest. rewrite (sumn_ext p _ (fun a => ft f i a * delta a j - ft f i a * fmm d f (ft f) a j)) by (intros; ring).
    rewrite sumn_minus, (sumn_delta_r p j (ft f i)) by auto. change (sumn p (fun a => ft f i a * fmm d f (ft f) a j)) with (fmm p (ft f) (fmm d f (ft f)) i j).
    rewrite <- fmm_assoc. rewrite (fmm_l d d p _ delta (ft f) Hf i j) by auto. rewrite (fid_l d p (ft f) i j) by auto. ring.
  Qed.
  Lemma rest_idem : feq p p (fmm p rest rest) rest.
  Proof.
    intros i j Hi Hj. unfold fmm. unfold rest at 1. rewrite (sumn_ext p _ (fun a => delta i a * rest a j - fmm d f (ft f) i a * rest a j)) by (intros; ring).
    rewrite sumn_minus, (sumn_delta_l p i (fun a => rest a j)) by auto. change (sumn p (fun a => fmm d f (ft f) i a * rest a j)) with (fmm p (fmm d f (ft f)) rest i j).
    rewrite fmm_assoc. rewrite (fmm_r p d p f _ (fun _ _ => 0) rest_orth i j) by auto. unfold fmm. rewrite (sumn_zero d) by (intros; ring). ring.
  Qed.
  Lemma rest_trace : ftr p rest = INR p - INR d.
  Proof.
    unfold rest. unfold ftr. rewrite sumn_minus. change (sumn p (fun i => fmm d f (ft f) i i)) with (ftr p (fmm d f (ft f))). rewrite ftr_mm.
    rewrite (ftr_ext d _ delta Hf), ftr_id. f_equal. apply ftr_id.
  Qed.
  Lemma rest_squares : sumn p (fun i => sumn p (fun j => rest i j ^ 2)) = INR p - INR d.
  Proof.
    rewrite <- rest_trace. apply sumn_ext. intros i Hi. rewrite <- (rest_idem i i Hi Hi). apply sumn_ext. intros a Ha. rewrite (rest_sym a i). ring.
  Qed.
End Projection.

(** orthonormal columns of a square matrix: the rows are orthonormal too *)
Lemma square_orthonormal : forall p f, orthonormal p p f -> feq p p (fmm p f (ft f)) delta.
Proof.
  intros p f Hf i j Hi Hj. pose proof (rest_squares p p f Hf) as H. rewrite Rminus_diag_eq in H by reflexivity.
  pose proof (sumn_zero_inv p _ ltac:(intros; apply sumn_nonneg; intros; apply pow2_ge_0) H i Hi) as H1. cbv beta in H1.
  pose proof (sumn_zero_inv p _ ltac:(intros; apply pow2_ge_0) H1 j Hj) as H2. cbv beta in H2.
  assert (rest p f i j = 0) by (destruct (Req_dec (rest p f i j) 0); [auto|]; apply (pow_nonzero _ 2) in H0; lra). unfold rest in H0. lra.
Qed.
(** fewer orthonormal columns than rows: some vector is orthogonal to them *)
Lemma missing_direction : forall p d f, orthonormal p d f -> (d < p)%nat -> exists x, 0 < sumn p (fun a => x a ^ 2) /\ forall i, (i < d)%nat -> sumn p (fun a => f a i * x a) = 0.
Proof.
  intros p d f Hf Hd. pose proof (rest_squares p d f Hf) as H. apply lt_INR in Hd.
  assert (HX : exists j, (j < p)%nat /\ 0 < sumn p (fun a => rest d f a j ^ 2)).
  { rewrite sumn_exchange in H. apply Classical_Prop.NNPP. intros HN.
    rewrite sumn_zero in H; [lra|]. intros j Hj. apply Classical_Prop.NNPP. intros H0. apply HN. exists j. split; [auto|].
    pose proof (sumn_nonneg p (fun a => rest d f a j ^ 2) ltac:(intros; apply pow2_ge_0)). lra. }
  destruct HX as [j [Hj Hp]]. exists (fun a => rest d f a j). split; [auto|]. intros i Hi. apply (rest_orth p d f Hf i j Hi Hj).
Qed.

(** ** leading eigenvectors *)
Definition quadf (p : nat) (m : fmat) (v : nat -> R) : R := sumn p (fun i => sumn p (fun j => v i * m i j * v j)).
Definition leadf (p : nat) (m : fmat) (d : nat) (b : fmat) (mu : nat -> R) : Prop :=
  orthonormal p d b /\
  (forall i c, (i < p)%nat -> (c < d)%nat -> fmm p m b i c = mu c * b i c) /\
  (forall c v, (c < d)%nat -> (forall i, (i < c)%nat -> sumn p (fun a => v a * b a i) = 0) -> quadf p m v <= mu c * sumn p (fun a => v a ^ 2)).
Definition gapf (p : nat) (m : fmat) (d : nat) (b : fmat) (mu : nat -> R) : Prop :=
  forall v c, 0 < sumn p (fun a => v a ^ 2) -> (forall i, (i < d)%nat -> sumn p (fun a => v a * b a i) = 0) -> (c < d)%nat -> quadf p m v < mu c * sumn p (fun a => v a ^ 2).

Lemma quadf_mm : forall p m v, quadf p m v = sumn p (fun i => v i * sumn p (fun j => m i j * v j)).
Proof. intros. apply sumn_ext. intros i Hi. rewrite <- sumn_scal. apply sumn_ext. intros; ring. Qed.

Section Unique.
  Variables (p d : nat) (m v w : fmat) (la mu : nat -> R).
  Hypothesis Hm : feq p p m (ft m).
  Hypothesis Hv : leadf p m d v la.
  Hypothesis Hw : leadf p m d w mu.
  Hypothesis Hg : gapf p m d v la.
  Let vw : fmat := fmm p (ft v) w.

  Lemma vw_eig : forall b c, (b < d)%nat -> (c < d)%nat -> la b * vw b c = mu c * vw b c.
  Proof.
    intros b c Hb Hc. destruct Hv as [_ [Ev _]], Hw as [_ [Ew _]].
    transitivity (fmm p (ft v) (fmm p m w) b c).
    - rewrite <- fmm_assoc. unfold vw. unfold fmm at 1 2. rewrite <- sumn_scal. apply sumn_ext. intros a Ha.
      replace (fmm p (ft v) m b a) with (la b * v a b); [unfold ft; ring|]. rewrite <- Ev by auto. unfold fmm, ft. apply sumn_ext. intros e He. rewrite (Hm a e) by auto. unfold ft. ring.
    - unfold vw, fmm at 1 3. rewrite <- sumn_scal. apply sumn_ext. intros a Ha. rewrite Ew by auto. ring.
  Qed.
  Let r (c : nat) : nat -> R := fun a => w a c - fmm d v vw a c.
  Lemma r_orth : forall c i, (c < d)%nat -> (i < d)%nat -> sumn p (fun a => r c a * v a i) = 0.
  Proof.
    intros c i Hc Hi. unfold r. rewrite (sumn_ext p _ (fun a => ft v i a * w a c - ft v i a * fmm d v vw a c)) by (intros; unfold ft; ring).
    rewrite sumn_minus. change (sumn p (fun a => ft v i a * w a c)) with (vw i c). change (sumn p (fun a => ft v i a * fmm d v vw a c)) with (fmm p (ft v) (fmm d v vw) i c).
    rewrite <- fmm_assoc. rewrite (fmm_l d d d _ delta vw (proj1 Hv) i c), (fid_l d d vw i c) by auto. ring.
  Qed.
  Lemma r_eig : forall c i, (c < d)%nat -> (i < p)%nat -> sumn p (fun a => m i a * r c a) = mu c * r c i.
  Proof.
    intros c i Hc Hi. unfold r. rewrite (sumn_ext p _ (fun a => m i a * w a c - m i a * fmm d v vw a c)) by (intros; ring).
    rewrite sumn_minus. change (sumn p (fun a => m i a * w a c)) with (fmm p m w i c). change (sumn p (fun a => m i a * fmm d v vw a c)) with (fmm p m (fmm d v vw) i c).
    rewrite <- fmm_assoc. rewrite (proj1 (proj2 Hw)) by auto. rewrite Rmult_minus_distr_l. f_equal. unfold fmm at 1 3. rewrite <- sumn_scal. apply sumn_ext. intros b Hb.
    rewrite (proj1 (proj2 Hv)) by auto. transitivity (v i b * (la b * vw b c)); [ring|]. rewrite vw_eig by auto. ring.
  Qed.
  Lemma r_quad : forall c, (c < d)%nat -> quadf p m (r c) = mu c * sumn p (fun a => r c a ^ 2).
  Proof.
    intros c Hc. rewrite quadf_mm, <- sumn_scal. apply sumn_ext. intros i Hi. rewrite r_eig by auto. ring.
  Qed.
  (** a nonzero remainder: the eigenvalue is smaller than all of [la] *)
  Lemma r_small : forall c b, (c < d)%nat -> (b < d)%nat -> 0 < sumn p (fun a => r c a ^ 2) -> mu c < la b.
  Proof.
    intros c b Hc Hb Hr. pose proof (Hg (r c) b Hr (fun i Hi => r_orth c i Hc Hi) Hb) as H. rewrite r_quad in H by auto.
    apply Rmult_lt_reg_r with (sumn p (fun a => r c a ^ 2)); auto.
  Qed.
  Lemma span_quad : forall x, quadf p m (fun a => sumn d (fun b => v a b * x b)) = sumn d (fun b => la b * x b ^ 2).
  Proof.
    intros x. rewrite quadf_mm.
    rewrite (sumn_ext p _ (fun i => sumn d (fun b => v i b * x b) * sumn d (fun b => la b * x b * v i b))).
    2:{ intros i Hi. f_equal. change (sumn p (fun j => m i j * sumn d (fun b => v j b * x b))) with (fmm p m (fmm d v (fun b _ => x b)) i 0%nat).
        rewrite <- fmm_assoc. unfold fmm at 1. apply sumn_ext. intros b Hb. rewrite (proj1 (proj2 Hv)) by auto. ring. }
    rewrite (sumn_ext p _ (fun i => sumn d (fun b => v i b * (x b * sumn d (fun e => la e * x e * v i e))))) by (intros i Hi; rewrite <- sumn_scal_r; apply sumn_ext; intros; ring).
    rewrite sumn_exchange. apply sumn_ext. intros b Hb.
    rewrite (sumn_ext p _ (fun i => sumn d (fun e => x b * la e * x e * (v i b * v i e)))) by (intros i Hi; rewrite <- Rmult_assoc, <- sumn_scal; apply sumn_ext; intros; ring).
    rewrite sumn_exchange. rewrite (sumn_ext d _ (fun e => (x b * la e * x e) * delta e b)).
    - rewrite (sumn_delta_r d b (fun e => x b * la e * x e)) by auto. ring.
    - intros e He. rewrite sumn_scal. f_equal. rewrite delta_sym. apply (proj1 Hv b e Hb He).
  Qed.
  Lemma span_norm : forall x, sumn p (fun a => sumn d (fun b => v a b * x b) ^ 2) = sumn d (fun b => x b ^ 2).
  Proof.
    intros x. rewrite (sumn_ext p _ (fun i => sumn d (fun b => sumn d (fun e => x b * x e * (v i b * v i e))))).
    2:{ intros i Hi. cbn [pow]. rewrite Rmult_1_r, <- sumn_scal_r. apply sumn_ext. intros b Hb. rewrite <- sumn_scal. apply sumn_ext. intros; ring. }
    rewrite sumn_exchange. apply sumn_ext. intros b Hb. rewrite sumn_exchange. rewrite (sumn_ext d _ (fun e => (x b * x e) * delta e b)).
    - rewrite (sumn_delta_r d b (fun e => x b * x e)) by auto. ring.
    - intros e He. rewrite sumn_scal. f_equal. rewrite delta_sym. apply (proj1 Hv b e Hb He).
  Qed.

  Lemma inside : forall c, (c < d)%nat -> forall a, (a < p)%nat -> w a c = fmm d v vw a c.
  Proof.
    intros c. induction c as [c IH] using (well_founded_induction lt_wf). intros Hc.
    assert (HZ : sumn p (fun a => r c a ^ 2) = 0).
    { destruct (Req_dec (sumn p (fun a => r c a ^ 2)) 0) as [H0|H0]; [auto|exfalso].
      assert (Hr : 0 < sumn p (fun a => r c a ^ 2)) by (pose proof (sumn_nonneg p (fun a => r c a ^ 2) ltac:(intros; apply pow2_ge_0)); lra).
      assert (Ho : orthonormal d c vw).
      { intros i j Hi Hj. transitivity (fmm p (ft w) w i j); [|apply (proj1 Hw); lia].
        transitivity (fmm p (ft (fmm d v vw)) w i j).
        - transitivity (fmm d (ft vw) (fmm p (ft v) w) i j); [reflexivity|]. rewrite <- fmm_assoc. apply (fmm_l d p d); try lia. intros e f He Hf. symmetry. apply ft_mm.
        - apply (fmm_l c p c); auto. intros e f He Hf. unfold ft. symmetry. apply IH; auto; lia. }
      destruct (missing_direction d c vw Ho Hc) as [x [Hx Hxo]].
      destruct Hw as [_ [_ Hmax]]. specialize (Hmax c (fun a => sumn d (fun b => v a b * x b)) Hc).
      rewrite span_quad, span_norm in Hmax.
      assert (H1 : sumn d (fun b => la b * x b ^ 2) <= mu c * sumn d (fun b => x b ^ 2)).
      { apply Hmax. intros i Hi. rewrite <- (Hxo i Hi).
        rewrite (sumn_ext p _ (fun a => sumn d (fun b => x b * (v a b * w a i)))) by (intros a Ha; rewrite <- sumn_scal_r; apply sumn_ext; intros; ring).
        rewrite sumn_exchange. apply sumn_ext. intros b Hb. rewrite sumn_scal. unfold vw, fmm, ft. ring. }
      rewrite <- sumn_scal in H1.
      assert (H2 : 0 < sumn d (fun b => (la b - mu c) * x b ^ 2)).
      { assert (HE : exists b, (b < d)%nat /\ 0 < x b ^ 2).
        { apply Classical_Prop.NNPP. intros HN. rewrite sumn_zero in Hx; [lra|]. intros b Hb. apply Classical_Prop.NNPP. intros HN2. apply HN. exists b. split; [auto|]. pose proof (pow2_ge_0 (x b)). lra. }
        destruct HE as [b [Hb Hxb]]. apply (sumn_pos d _ b); [|auto|].
        - intros e He. apply Rmult_le_pos; [|apply pow2_ge_0]. pose proof (r_small c e Hc He Hr). lra.
        - apply Rmult_lt_0_compat; [|auto]. pose proof (r_small c b Hc Hb Hr). lra. }
      rewrite (sumn_ext d _ (fun b => la b * x b ^ 2 - mu c * x b ^ 2)) in H2 by (intros; ring). rewrite sumn_minus in H2. lra. }
    intros a Ha. pose proof (sumn_zero_inv p _ ltac:(intros; apply pow2_ge_0) HZ a Ha) as H. cbv beta in H.
    assert (Hra : r c a = 0) by (destruct (Req_dec (r c a) 0) as [|HN]; [auto|]; apply (pow_nonzero _ 2) in HN; lra). unfold r in Hra. lra.
  Qed.

  (** the two bases differ by an orthogonal matrix *)
  Lemma leading_unique : exists c, orthonormal d d c /\ feq p d w (fmm d v c).
  Proof.
    exists vw. split; [|intros a c Ha Hc; apply inside; auto]. intros i j Hi Hj. transitivity (fmm p (ft w) w i j); [|apply (proj1 Hw); lia].
    transitivity (fmm p (ft (fmm d v vw)) w i j).
    - transitivity (fmm d (ft vw) (fmm p (ft v) w) i j); [reflexivity|]. rewrite <- fmm_assoc. apply (fmm_l d p d); try lia. intros e f He Hf. symmetry. apply ft_mm.
    - apply (fmm_l d p d); auto. intros e f He Hf. unfold ft. symmetry. apply inside; auto; lia.
  Qed.
End Unique.
