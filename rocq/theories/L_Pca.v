(** Deflation along the directions of maximal variance, in terms of functions on
    indices. *)

From Coq Require Import Reals List Arith Bool Lia Lra.
From Verif Require Import Num VecR.
Open Scope R_scope.

Definition ip (n : nat) (u v : nat -> R) : R := sumn n (fun j => u j * v j).
Definition ap (p : nat) (M : nat -> nat -> R) (u : nat -> R) : nat -> R := fun r => sumn p (fun j => M r j * u j).
Definition tap (n : nat) (M : nat -> nat -> R) (t : nat -> R) : nat -> R := fun j => sumn n (fun r => M r j * t r).

Lemma ip_sym : forall n u v, ip n u v = ip n v u.
Proof. intros. apply sumn_ext. intros. ring. Qed.
Lemma ip_ext : forall n u v u' v', (forall j, (j < n)%nat -> u j = u' j) -> (forall j, (j < n)%nat -> v j = v' j) -> ip n u v = ip n u' v'.
Proof. intros n u v u' v' H1 H2. apply sumn_ext. intros j Hj. rewrite H1, H2 by auto. reflexivity. Qed.
Lemma ip_comb_r : forall n u v w a, ip n u (fun j => v j + a * w j) = ip n u v + a * ip n u w.
Proof. intros. unfold ip. rewrite <- sumn_scal, <- sumn_plus. apply sumn_ext. intros. ring. Qed.
Lemma ip_comb_l : forall n u v w a, ip n (fun j => v j + a * w j) u = ip n v u + a * ip n w u.
Proof. intros. rewrite ip_sym, ip_comb_r, (ip_sym n u v), (ip_sym n u w). reflexivity. Qed.
Lemma ip_nonneg : forall n u, 0 <= ip n u u.
Proof. intros. apply sumn_nonneg. intros. nra. Qed.
Lemma ip_zero_r : forall n u v, (forall j, (j < n)%nat -> v j = 0) -> ip n u v = 0.
Proof. intros n u v Hv. apply sumn_zero. intros j Hj. rewrite Hv by auto. ring. Qed.
Lemma adjoint : forall n p M t u, ip n t (ap p M u) = ip p (tap n M t) u.
Proof.
  intros. unfold ip, ap, tap. rewrite (sumn_ext n _ (fun r => sumn p (fun j => t r * (M r j * u j)))) by (intros; rewrite sumn_scal; reflexivity).
  rewrite sumn_exchange. apply sumn_ext. intros j Hj. rewrite <- sumn_scal_r. apply sumn_ext. intros. ring.
Qed.
Lemma ap_comb : forall p M u v a r, ap p M (fun j => u j + a * v j) r = ap p M u r + a * ap p M v r.
Proof. intros. unfold ap. rewrite <- sumn_scal, <- sumn_plus. apply sumn_ext. intros. ring. Qed.
Lemma ip_unit : forall n t k, (k < n)%nat -> ip n t (fun j => if (k =? j)%nat then 1 else 0) = t k.
Proof.
  intros n t k Hk. unfold ip. rewrite (sumn_ext n _ (fun j => if (j =? k)%nat then t j else 0)) by (intros j _; rewrite Nat.eqb_sym; destruct (j =? k)%nat; ring).
  apply sumn_delta; auto.
Qed.

Lemma no_slope : forall a c, (forall s, 2 * s * a <= s * s * c) -> a = 0.
Proof.
  intros a c H. destruct (Req_dec a 0) as [|Ha]; auto. exfalso. pose proof (H 1) as H1. pose proof (H (-1)) as H2.
  assert (Hc : 0 <= c) by lra. set (k := a / (1 + c)). pose proof (H k) as Hk.
  assert (Ek : a = k * (1 + c)) by (unfold k; field; lra). assert (0 < a * a) by nra.
  assert (Hkk : 0 < k * k) by (destruct (Req_dec k 0); nra). rewrite Ek in Hk. nra.
Qed.

(** a unit vector of maximal |M w|: the adjoint applied to M w is a multiple of w *)
Lemma rayleigh : forall n p M w, ip p w w = 1 -> (forall u, ip p u u = 1 -> ip n (ap p M u) (ap p M u) <= ip n (ap p M w) (ap p M w)) ->
  forall j, (j < p)%nat -> tap n M (ap p M w) j = ip n (ap p M w) (ap p M w) * w j.
Proof.
  intros n p M w Hw Hmax. set (l := ip n (ap p M w) (ap p M w)) in *.
  assert (Hall : forall v, ip n (ap p M v) (ap p M v) <= l * ip p v v).
  { intros v. destruct (Req_dec (ip p v v) 0) as [Z|NZ].
    - rewrite Z, Rmult_0_r. assert (Hz : forall j, (j < p)%nat -> v j = 0).
      { intros j Hj. assert (Hsq : v j * v j = 0); [|nra]. revert Z. unfold ip. intros Z.
        assert (v j * v j <= 0); [|nra]. rewrite <- Z. rewrite <- (ip_unit p (fun j => v j * v j) j Hj). apply sumn_le. intros i Hi. destruct (j =? i)%nat; nra. }
      right. apply ip_zero_r. intros r _. unfold ap. apply sumn_zero. intros j Hj. rewrite Hz by auto. ring.
    - pose proof (ip_nonneg p v) as Hp. set (q := ip p v v) in *. assert (Hq : 0 < q) by lra. pose proof (sqrt_lt_R0 q Hq) as Hs.
      assert (Hss : sqrt q * sqrt q = q) by (apply sqrt_sqrt; lra).
      assert (Hiq : / q = / sqrt q * / sqrt q) by (rewrite <- Hss at 1; field; lra).
      assert (Hsc : forall u u', ip n (fun r => / sqrt q * u r) (fun r => / sqrt q * u' r) = / q * ip n u u').
      { intros u u'. unfold ip. rewrite <- sumn_scal. apply sumn_ext. intros. rewrite Hiq. ring. }
      specialize (Hmax (fun j => / sqrt q * v j)).
      assert (E1 : ip p (fun j => / sqrt q * v j) (fun j => / sqrt q * v j) = 1).
      { transitivity (/ q * ip p v v); [|fold q; field; lra]. unfold ip at 1 2. rewrite <- sumn_scal. apply sumn_ext. intros. rewrite Hiq. ring. }
      specialize (Hmax E1).
      rewrite (ip_ext n _ _ (fun r => / sqrt q * ap p M v r) (fun r => / sqrt q * ap p M v r)) in Hmax
        by (intros r _; unfold ap; rewrite <- sumn_scal; apply sumn_ext; intros; ring).
      rewrite Hsc in Hmax. apply (Rmult_le_compat_l q) in Hmax; [|lra]. rewrite <- Rmult_assoc, Rinv_r, Rmult_1_l in Hmax by lra. lra. }
  intros j Hj. set (e := fun i => if (j =? i)%nat then 1 else 0).
  assert (H0 : ip n (ap p M w) (ap p M e) - l * ip p w e = 0).
  { apply (no_slope _ (l * ip p e e - ip n (ap p M e) (ap p M e))). intros s. specialize (Hall (fun i => w i + s * e i)).
    rewrite (ip_ext n _ _ (fun r => ap p M w r + s * ap p M e r) (fun r => ap p M w r + s * ap p M e r)) in Hall by (intros; apply ap_comb).
    rewrite !ip_comb_l, !ip_comb_r, Hw in Hall. fold l in Hall. rewrite (ip_sym n (ap p M e) (ap p M w)), (ip_sym p e w) in Hall. nra. }
  rewrite adjoint in H0. unfold e in H0. rewrite !ip_unit in H0 by auto. lra.
Qed.

Section Deflation.
  Variables (n p h : nat) (E : nat -> nat -> nat -> R) (W T : nat -> nat -> R).
  Hypothesis HT : forall i r, (i < h)%nat -> (r < n)%nat -> T i r = ap p (E i) (W i) r.
  Hypothesis HE : forall i r j, (i < h)%nat -> (r < n)%nat -> (j < p)%nat -> E (S i) r j = E i r j - T i r * (tap n (E i) (T i) j / ip n (T i) (T i)).
  Hypothesis Hunit : forall i, (i < h)%nat -> ip p (W i) (W i) = 1.
  Hypothesis Hpos : forall i, (i < h)%nat -> 0 < ip n (T i) (T i).
  Hypothesis Hmax : forall i u, (i < h)%nat -> ip p u u = 1 -> ip n (ap p (E i) u) (ap p (E i) u) <= ip n (T i) (T i).

  Lemma loading : forall i j, (i < h)%nat -> (j < p)%nat -> tap n (E i) (T i) j = ip n (T i) (T i) * W i j.
  Proof.
    intros i j Hi Hj. assert (EE : ip n (T i) (T i) = ip n (ap p (E i) (W i)) (ap p (E i) (W i))) by (apply ip_ext; intros; apply HT; auto).
    rewrite EE. transitivity (tap n (E i) (ap p (E i) (W i)) j).
    - unfold tap. apply sumn_ext. intros r Hr. rewrite HT by auto. reflexivity.
    - apply rayleigh; auto. intros u Hu. rewrite <- EE. apply Hmax; auto.
  Qed.
  Lemma E_step : forall i r j, (i < h)%nat -> (r < n)%nat -> (j < p)%nat -> E (S i) r j = E i r j - T i r * W i j.
  Proof. intros i r j Hi Hr Hj. rewrite HE, loading by auto. pose proof (Hpos i Hi). field. lra. Qed.
  Lemma ap_step : forall i u r, (i < h)%nat -> (r < n)%nat -> ap p (E (S i)) u r = ap p (E i) u r - T i r * ip p (W i) u.
  Proof.
    intros i u r Hi Hr. unfold ap, ip. rewrite <- sumn_scal, <- sumn_minus. apply sumn_ext. intros j Hj. rewrite E_step by auto. ring.
  Qed.
  Lemma tap_step : forall i t j, (i < h)%nat -> (j < p)%nat -> tap n (E (S i)) t j = tap n (E i) t j - W i j * ip n (T i) t.
  Proof.
    intros i t j Hi Hj. unfold tap, ip. rewrite <- sumn_scal, <- sumn_minus. apply sumn_ext. intros r Hr. rewrite E_step by auto. ring.
  Qed.

  Lemma invariants : forall i, (i <= h)%nat -> forall k, (k < i)%nat ->
    (forall r, (r < n)%nat -> ap p (E i) (W k) r = 0) /\ (forall j, (j < p)%nat -> tap n (E i) (T k) j = 0).
  Proof.
    induction i as [|i IH]; intros Hi k Hk; [lia|]. destruct (Nat.eq_dec k i) as [->|Hki].
    - split.
      + intros r Hr. rewrite ap_step, Hunit, <- HT by (auto; lia). ring.
      + intros j Hj. rewrite tap_step, loading by (auto; lia). ring.
    - destruct (IH ltac:(lia) k ltac:(lia)) as [I1 I2]. split.
      + intros r Hr. rewrite ap_step, I1 by (auto; lia).
        assert (H0 : ip n (T i) (T i) * ip p (W i) (W k) = 0).
        { unfold ip at 2. rewrite <- sumn_scal. rewrite (sumn_ext p _ (fun j => tap n (E i) (T i) j * W k j)) by (intros; rewrite loading by (auto; lia); ring).
          change (ip p (tap n (E i) (T i)) (W k) = 0). rewrite <- adjoint. apply ip_zero_r. exact I1. }
        pose proof (Hpos i ltac:(lia)). apply Rmult_integral in H0. destruct H0 as [H0|H0]; [lra|]. rewrite H0. ring.
      + intros j Hj. rewrite tap_step, I2 by (auto; lia).
        assert (H0 : ip n (T i) (T k) = 0).
        { rewrite ip_sym. rewrite (ip_ext n _ _ (T k) (ap p (E i) (W i))) by (intros; auto; apply HT; auto; lia). rewrite adjoint, ip_sym. apply ip_zero_r. exact I2. }
        rewrite H0. ring.
  Qed.

  Lemma W_orth : forall i k, (i < h)%nat -> (k < i)%nat -> ip p (W i) (W k) = 0.
  Proof.
    intros i k Hi Hk. destruct (invariants i ltac:(lia) k Hk) as [I1 _].
    assert (H0 : ip n (T i) (T i) * ip p (W i) (W k) = 0).
    { unfold ip at 2. rewrite <- sumn_scal. rewrite (sumn_ext p _ (fun j => tap n (E i) (T i) j * W k j)) by (intros; rewrite loading by auto; ring).
      change (ip p (tap n (E i) (T i)) (W k) = 0). rewrite <- adjoint. apply ip_zero_r. exact I1. }
    pose proof (Hpos i Hi). apply Rmult_integral in H0. destruct H0; lra.
  Qed.
  Lemma T_orth : forall i k, (i < h)%nat -> (k < i)%nat -> ip n (T i) (T k) = 0.
  Proof.
    intros i k Hi Hk. destruct (invariants i ltac:(lia) k Hk) as [_ I2]. rewrite ip_sym.
    rewrite (ip_ext n _ _ (T k) (ap p (E i) (W i))) by (intros; auto; apply HT; auto). rewrite adjoint, ip_sym. apply ip_zero_r. exact I2.
  Qed.
  (** on the directions orthogonal to the earlier ones, the deflated data act as the data *)
  Lemma ap_all : forall u i, (i <= h)%nat -> (forall k, (k < i)%nat -> ip p (W k) u = 0) -> forall r, (r < n)%nat -> ap p (E i) u r = ap p (E 0%nat) u r.
  Proof.
    intros u. induction i as [|i IH]; intros Hi Hu r Hr; [reflexivity|]. rewrite ap_step, Hu, IH by (auto; lia). ring.
  Qed.
  Lemma scores_plain : forall i r, (i < h)%nat -> (r < n)%nat -> T i r = ap p (E 0%nat) (W i) r.
  Proof. intros i r Hi Hr. rewrite HT by auto. apply ap_all; auto; [lia|]. intros k Hk. rewrite ip_sym. apply W_orth; auto. Qed.
  Lemma tap_all : forall t i, (i <= h)%nat -> (forall k, (k < i)%nat -> ip n (T k) t = 0) -> forall j, (j < p)%nat -> tap n (E i) t j = tap n (E 0%nat) t j.
  Proof.
    intros t. induction i as [|i IH]; intros Hi Hu j Hj; [reflexivity|]. rewrite tap_step, Hu, IH by (auto; lia). ring.
  Qed.
  Lemma eigen : forall i j, (i < h)%nat -> (j < p)%nat -> tap n (E 0%nat) (T i) j = ip n (T i) (T i) * W i j.
  Proof.
    intros i j Hi Hj. rewrite <- (tap_all (T i) i) by (auto; try lia; intros k Hk; rewrite ip_sym; apply T_orth; auto). apply loading; auto.
  Qed.
  Lemma max_orth : forall i u, (i < h)%nat -> ip p u u = 1 -> (forall k, (k < i)%nat -> ip p (W k) u = 0) ->
    ip n (ap p (E 0%nat) u) (ap p (E 0%nat) u) <= ip n (T i) (T i).
  Proof.
    intros i u Hi Hu Ho. rewrite <- (ip_ext n (ap p (E i) u) (ap p (E i) u)) by (intros; apply ap_all; auto; lia). apply Hmax; auto.
  Qed.
End Deflation.
