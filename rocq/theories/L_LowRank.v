(** Best low-rank approximation: an orthonormal system of eigenvectors that is
    maximal step by step is optimal among all systems of the same size. *)

From Coq Require Import Reals List Arith Bool Lia Lra Psatz.
Import ListNotations.
From Verif Require Import Num Vec VecR L_EqMat L_Pca.
Open Scope R_scope.

Definition orthonormal_fun (p m : nat) (q : nat -> nat -> R) : Prop :=
  forall a b, (a < m)%nat -> (b < m)%nat -> ip p (q a) (q b) = if (a =? b)%nat then 1 else 0.

(** ** what is left of [u] after its components along q 0, ..., q (i-1) are removed *)
Fixpoint rest (p : nat) (q : nat -> nat -> R) (u : nat -> R) (i : nat) : nat -> R :=
  match i with O => u | S i => fun j => rest p q u i j + (- ip p u (q i)) * q i j end.

Section Rest.
  Variables (p m : nat) (q : nat -> nat -> R) (u : nat -> R).
  Hypothesis Hq : orthonormal_fun p m q.
  Lemma rest_ip : forall i a, (i <= m)%nat -> (a < m)%nat -> ip p (rest p q u i) (q a) = if (a <? i)%nat then 0 else ip p u (q a).
  Proof.
    induction i as [|i IH]; intros a Hi Ha; [reflexivity|]. cbn [rest]. rewrite ip_comb_l, IH by lia. rewrite Hq by lia.
    destruct (Nat.ltb_spec a i), (Nat.ltb_spec a (S i)), (Nat.eqb_spec i a); try lia; subst; ring.
  Qed.
  Lemma rest_sq : forall i, (i <= m)%nat -> ip p (rest p q u i) (rest p q u i) = ip p u u - sumn i (fun a => ip p u (q a) * ip p u (q a)).
  Proof.
    induction i as [|i IH]; intros Hi; [cbn [rest]; rewrite sumn_0; ring|]. cbn [rest]. rewrite ip_comb_l, ip_comb_r, ip_comb_r, IH, sumn_S by lia.
    rewrite (ip_sym p (q i) (rest p q u i)), rest_ip, Hq by lia. rewrite Nat.eqb_refl. destruct (Nat.ltb_spec i i); [lia|]. ring.
  Qed.
  Lemma rest_cell : forall i j, rest p q u i j = u j - sumn i (fun a => ip p u (q a) * q a j).
  Proof. induction i as [|i IH]; intros j; [cbn [rest]; rewrite sumn_0; ring|]. cbn [rest]. rewrite IH, sumn_S. ring. Qed.
  Lemma bessel_ineq : sumn m (fun a => ip p u (q a) * ip p u (q a)) <= ip p u u.
  Proof. pose proof (rest_sq m (le_n m)) as E. pose proof (ip_nonneg p (rest p q u m)). lra. Qed.
End Rest.

(** ** Gram-Schmidt *)
Lemma gram_schmidt : forall p K (b : nat -> nat -> R), exists m q, (m <= K)%nat /\ orthonormal_fun p m q /\
  exists c : nat -> nat -> R, forall a j, (a < K)%nat -> (j < p)%nat -> b a j = sumn m (fun l => c a l * q l j).
Proof.
  intros p K b. induction K as [|K IH].
  - exists 0%nat, (fun _ _ => 0). split; [lia|]. split; [intros x y Hx; lia|]. exists (fun _ _ => 0). intros a j Ha; lia.
  - destruct IH as (m & q & Hm & Hq & c & Hc). set (r := rest p q (b K) m).
    destruct (Req_EM_T (ip p r r) 0) as [Hz|Hz].
    + exists m, q. split; [lia|]. split; [exact Hq|]. exists (fun a l => if (a =? K)%nat then ip p (b K) (q l) else c a l). intros a j Ha Hj.
      destruct (Nat.eqb_spec a K) as [->|Hne]; [|apply Hc; lia]. assert (E : r j = 0).
      { assert (Hs : r j * r j = 0) by (apply (sumn_zero_inv p (fun j => r j * r j)); auto; intros; nra). nra. }
      unfold r in E. rewrite rest_cell in E. lra.
    + assert (Hp : 0 < ip p r r) by (pose proof (ip_nonneg p r); lra). set (s := sqrt (ip p r r)). assert (Hs : 0 < s) by (apply sqrt_lt_R0; exact Hp).
      assert (Hss : s * s = ip p r r) by (apply sqrt_sqrt; lra).
      set (q' := fun l j => if (l =? m)%nat then r j / s else q l j).
      assert (Hrq : forall a, (a < m)%nat -> ip p r (q a) = 0).
      { intros a Ha. unfold r. rewrite (rest_ip p m) by auto. destruct (Nat.ltb_spec a m); [reflexivity|lia]. }
      assert (Hdiv : forall v, ip p (fun j => r j / s) v = ip p r v / s).
      { intros v. unfold ip, Rdiv. rewrite <- sumn_scal_r. apply sumn_ext. intros; ring. }
      assert (Hq'm : q' m = fun j => r j / s) by (unfold q'; rewrite Nat.eqb_refl; reflexivity).
      assert (Hq'a : forall a, (a < m)%nat -> q' a = q a).
      { intros a Ha. unfold q'. destruct (Nat.eqb_spec a m); [lia|reflexivity]. }
      exists (S m), q'. split; [lia|]. split.
      * intros x y Hx Hy. destruct (Nat.eq_dec x m) as [->|Hxm]; destruct (Nat.eq_dec y m) as [->|Hym].
        -- rewrite Nat.eqb_refl, !Hq'm, Hdiv, ip_sym, Hdiv, <- Hss. field. lra.
        -- rewrite Hq'm, Hq'a by lia. rewrite Hdiv, Hrq by lia. destruct (Nat.eqb_spec m y); [lia|]. field. lra.
        -- rewrite Hq'm, Hq'a by lia. rewrite ip_sym, Hdiv, Hrq by lia. destruct (Nat.eqb_spec x m); [lia|]. field. lra.
        -- rewrite !Hq'a by lia. apply Hq; lia.
      * exists (fun a l => if (a =? K)%nat then if (l =? m)%nat then s else ip p (b K) (q l) else if (l =? m)%nat then 0 else c a l). intros a j Ha Hj.
        rewrite sumn_S, Nat.eqb_refl. rewrite Hq'm.
        rewrite (sumn_ext m _ (fun l => (if (a =? K)%nat then ip p (b K) (q l) else c a l) * q l j)) by (intros l Hl; destruct (Nat.eqb_spec l m); [lia|]; rewrite Hq'a by lia; destruct (a =? K)%nat; reflexivity).
        destruct (Nat.eqb_spec a K) as [->|Hne].
        -- assert (E : r j = b K j - sumn m (fun a => ip p (b K) (q a) * q a j)) by (unfold r; apply rest_cell). replace (s * (r j / s)) with (r j) by (field; lra). lra.
        -- rewrite Rmult_0_l, Rplus_0_r. apply Hc; lia.
Qed.

(** distance to a point of the span *)
Lemma span_sq : forall p m q z d, orthonormal_fun p m q ->
  sumn p (fun j => (z j - sumn m (fun l => d l * q l j)) * (z j - sumn m (fun l => d l * q l j))) =
  ip p z z - sumn m (fun l => ip p z (q l) * ip p z (q l)) + sumn m (fun l => (d l - ip p z (q l)) * (d l - ip p z (q l))).
Proof.
  intros p m q z d Hq. revert z. induction m as [|m IH]; intros z.
  - rewrite !sumn_0. unfold ip. rewrite Rminus_0_r, Rplus_0_r. apply sumn_ext. intros j Hj. rewrite sumn_0. ring.
  - assert (Hq' : orthonormal_fun p m q) by (intros x y Hx Hy; apply Hq; lia).
    set (z' := fun j => z j + (- d m) * q m j).
    assert (Ez : forall l, (l < m)%nat -> ip p z' (q l) = ip p z (q l)).
    { intros l Hl. unfold z'. rewrite ip_comb_l, Hq by lia. destruct (Nat.eqb_spec m l); [lia|]. ring. }
    assert (Ezz : ip p z' z' = ip p z z - 2 * d m * ip p z (q m) + d m * d m).
    { unfold z'. rewrite ip_comb_l, !ip_comb_r, (ip_sym p (q m) z), Hq by lia. rewrite Nat.eqb_refl. ring. }
    rewrite (sumn_ext p _ (fun j => (z' j - sumn m (fun l => d l * q l j)) * (z' j - sumn m (fun l => d l * q l j)))) by (intros j Hj; rewrite sumn_S; unfold z'; ring).
    rewrite (IH Hq' z'), Ezz, !sumn_S.
    rewrite (sumn_ext m (fun l => ip p z' (q l) * ip p z' (q l)) (fun l => ip p z (q l) * ip p z (q l))) by (intros l Hl; rewrite Ez by lia; reflexivity).
    rewrite (sumn_ext m (fun l => (d l - ip p z' (q l)) * (d l - ip p z' (q l))) (fun l => (d l - ip p z (q l)) * (d l - ip p z (q l)))) by (intros l Hl; rewrite Ez by lia; reflexivity).
    ring.
Qed.

Section KyFan.
  Variables (n p h : nat) (z w : nat -> nat -> R) (mu : nat -> R).
  Let N (u : nat -> R) : R := ip n (ap p z u) (ap p z u).
  Hypothesis Hw : orthonormal_fun p h w.
  Hypothesis He : forall a j, (a < h)%nat -> (j < p)%nat -> tap n z (ap p z (w a)) j = mu a * w a j.
  Hypothesis Hm : forall k u, (k < h)%nat -> ip p u u = 1 -> (forall a, (a < k)%nat -> ip p u (w a) = 0) -> N u <= mu k.

  Lemma eig_ip : forall a u, (a < h)%nat -> ip n (ap p z (w a)) (ap p z u) = mu a * ip p (w a) u.
  Proof.
    intros a u Ha. rewrite adjoint. rewrite (ip_ext p _ _ (fun j => mu a * w a j) u) by (auto; intros; apply He; auto).
    unfold ip. rewrite <- sumn_scal. apply sumn_ext. intros; ring.
  Qed.
  Lemma mu_N : forall a, (a < h)%nat -> mu a = N (w a).
  Proof. intros a Ha. unfold N. rewrite eig_ip, Hw, Nat.eqb_refl by auto. ring. Qed.
  Lemma mu_nonneg : forall a, (a < h)%nat -> 0 <= mu a.
  Proof. intros a Ha. rewrite mu_N by auto. apply ip_nonneg. Qed.
  Lemma mu_decr : forall a k, (a <= k)%nat -> (k < h)%nat -> mu k <= mu a.
  Proof.
    intros a k Hak Hk. destruct (Nat.eq_dec a k) as [->|Hne]; [lra|]. rewrite (mu_N k Hk). apply Hm; [lia|rewrite Hw, Nat.eqb_refl by lia; reflexivity|].
    intros b Hb. rewrite Hw by lia. destruct (Nat.eqb_spec k b); [lia|reflexivity].
  Qed.
  Lemma N_ext : forall u v, (forall j, (j < p)%nat -> u j = v j) -> N u = N v.
  Proof. intros u v Huv. unfold N. apply ip_ext; intros r Hr; apply sumn_ext; intros j Hj; rewrite Huv by auto; reflexivity. Qed.
  Lemma max_homog : forall k u, (k < h)%nat -> (forall a, (a < k)%nat -> ip p u (w a) = 0) -> N u <= mu k * ip p u u.
  Proof.
    intros k u Hk Ho. destruct (Req_EM_T (ip p u u) 0) as [Hz|Hz].
    - rewrite Hz, Rmult_0_r. assert (Hu : forall j, (j < p)%nat -> u j = 0).
      { intros j Hj. assert (Hs : u j * u j = 0) by (apply (sumn_zero_inv p (fun j => u j * u j)); auto; intros; nra). nra. }
      rewrite (N_ext u (fun _ => 0)) by auto. unfold N. rewrite ip_zero_r; [lra|]. intros r Hr. apply sumn_zero. intros; ring.
    - assert (Hp : 0 < ip p u u) by (pose proof (ip_nonneg p u); lra). set (s := sqrt (ip p u u)). assert (Hs : 0 < s) by (apply sqrt_lt_R0; exact Hp).
      assert (Hss : s * s = ip p u u) by (apply sqrt_sqrt; lra). set (v := fun j => / s * u j).
      assert (Ev : forall x, ip p v x = / s * ip p u x) by (intros x; unfold v, ip; rewrite <- sumn_scal; apply sumn_ext; intros; ring).
      assert (EN : N v = / s * / s * N u).
      { unfold N, ip. rewrite <- sumn_scal. apply sumn_ext. intros r Hr. assert (Ea : ap p z v r = / s * ap p z u r) by (unfold ap, v; rewrite <- sumn_scal; apply sumn_ext; intros; ring). rewrite Ea. ring. }
      assert (Hv : N v <= mu k).
      { apply Hm; auto. - rewrite Ev, ip_sym, Ev, <- Hss. field. lra. - intros a Ha. rewrite Ev, Ho by auto. ring. }
      rewrite EN in Hv. rewrite <- Hss. apply (Rmult_le_compat_l (s * s)) in Hv; [|nra]. replace (s * s * (/ s * / s * N u)) with (N u) in Hv by (field; lra). lra.
  Qed.
  Lemma rest_N : forall u i, (i <= h)%nat -> N (rest p w u i) = N u - sumn i (fun a => mu a * (ip p u (w a) * ip p u (w a))).
  Proof.
    intros u i. induction i as [|i IH]; intros Hi; [cbn [rest]; rewrite sumn_0; ring|]. cbn [rest]. rewrite sumn_S.
    assert (E : N (fun j => rest p w u i j + - ip p u (w i) * w i j) = N (rest p w u i) + 2 * (- ip p u (w i)) * ip n (ap p z (w i)) (ap p z (rest p w u i)) + ip p u (w i) * ip p u (w i) * N (w i)).
    { unfold N. rewrite (ip_ext n _ _ (fun r => ap p z (rest p w u i) r + - ip p u (w i) * ap p z (w i) r) (fun r => ap p z (rest p w u i) r + - ip p u (w i) * ap p z (w i) r)) by (intros; apply ap_comb).
      rewrite ip_comb_l, !ip_comb_r, (ip_sym n (ap p z (rest p w u i)) (ap p z (w i))). ring. }
    rewrite E, IH, eig_ip, <- mu_N by lia. rewrite (ip_sym p (w i)), (rest_ip p h w u Hw) by lia. destruct (Nat.ltb_spec i i); [lia|]. ring.
  Qed.
  Lemma quad_bound : forall k u, (k < h)%nat -> N u <= mu k * ip p u u + sumn k (fun a => (mu a - mu k) * (ip p u (w a) * ip p u (w a))).
  Proof.
    intros k u Hk. assert (Hr : N (rest p w u k) <= mu k * ip p (rest p w u k) (rest p w u k)).
    { apply max_homog; auto. intros a Ha. rewrite (rest_ip p h w u Hw) by lia. destruct (Nat.ltb_spec a k); [reflexivity|lia]. }
    rewrite rest_N, (rest_sq p h w u Hw) in Hr by lia.
    rewrite (sumn_ext k _ (fun a => mu a * (ip p u (w a) * ip p u (w a)) - mu k * (ip p u (w a) * ip p u (w a)))) by (intros; ring).
    rewrite sumn_minus, sumn_scal. lra.
  Qed.
  Theorem ky_fan : forall K m q, (0 < K)%nat -> (K <= h)%nat -> (m <= K)%nat -> orthonormal_fun p m q -> sumn m (fun l => N (q l)) <= sumn K mu.
  Proof.
    intros K m q HK0 HK Hm' Hq. destruct K as [|k]; [lia|]. clear HK0.
    apply Rle_trans with (sumn m (fun l => mu k + sumn k (fun a => (mu a - mu k) * (ip p (q l) (w a) * ip p (q l) (w a))))).
    { apply sumn_le. intros l Hl. eapply Rle_trans; [apply (quad_bound k (q l)); lia|]. rewrite Hq, Nat.eqb_refl by auto. lra. }
    rewrite sumn_plus, sumn_const, (sumn_exchange m k). rewrite (sumn_ext k _ (fun a => (mu a - mu k) * sumn m (fun l => ip p (w a) (q l) * ip p (w a) (q l)))).
    2:{ intros a Ha. rewrite sumn_scal. f_equal. apply sumn_ext. intros l Hl. rewrite (ip_sym p (q l)). ring. }
    apply Rle_trans with (INR m * mu k + sumn k (fun a => mu a - mu k)).
    { apply Rplus_le_compat_l, sumn_le. intros a Ha. pose proof (bessel_ineq p m q (w a) Hq) as B. rewrite Hw, Nat.eqb_refl in B by lia. pose proof (mu_decr a k ltac:(lia) ltac:(lia)). nra. }
    rewrite sumn_minus, sumn_const, sumn_S. pose proof (mu_nonneg k ltac:(lia)). assert (INR m <= INR k + 1) by (rewrite <- S_INR; apply le_INR; lia). nra.
  Qed.

  (** any product of an n x K and a K x p matrix *)
  Theorem low_rank : forall K (S B : nat -> nat -> R), (0 < K)%nat -> (K <= h)%nat ->
    sumn n (fun i => sumn p (fun j => (z i j - sumn K (fun a => ap p z (w a) i * w a j)) * (z i j - sumn K (fun a => ap p z (w a) i * w a j)))) <=
    sumn n (fun i => sumn p (fun j => (z i j - sumn K (fun a => S i a * B a j)) * (z i j - sumn K (fun a => S i a * B a j)))).
  Proof.
    intros K S B HK0 HK. destruct (gram_schmidt p K B) as (m & q & Hm' & Hq & c & Hc).
    assert (HwK : orthonormal_fun p K w) by (intros x y Hx Hy; apply Hw; lia).
    assert (Hsw : forall m (q : nat -> nat -> R), sumn n (fun i => sumn m (fun l => ip p (z i) (q l) * ip p (z i) (q l))) = sumn m (fun l => N (q l))).
    { intros m0 q0. rewrite sumn_exchange. apply sumn_ext. intros l Hl. reflexivity. }
    (* the left side *)
    rewrite (sumn_ext n (fun i => sumn p (fun j => (z i j - sumn K (fun a => ap p z (w a) i * w a j)) * (z i j - sumn K (fun a => ap p z (w a) i * w a j))))
      (fun i => ip p (z i) (z i) - sumn K (fun l => ip p (z i) (w l) * ip p (z i) (w l)))).
    2:{ intros i Hi. rewrite (span_sq p K w (z i) (fun a => ap p z (w a) i) HwK). rewrite (sumn_zero K (fun l => (ap p z (w l) i - ip p (z i) (w l)) * (ap p z (w l) i - ip p (z i) (w l)))); [ring|].
        intros l Hl. unfold ap, ip. ring. }
    rewrite sumn_minus, Hsw.
    (* the right side *)
    apply Rle_trans with (sumn n (fun i => ip p (z i) (z i) - sumn m (fun l => ip p (z i) (q l) * ip p (z i) (q l)))).
    - rewrite sumn_minus, Hsw. pose proof (ky_fan K m q HK0 HK Hm' Hq) as HF.
      rewrite (sumn_ext K mu (fun a => N (w a))) in HF by (intros; apply mu_N; lia). lra.
    - apply sumn_le. intros i Hi. set (d := fun l => sumn K (fun a => S i a * c a l)).
      rewrite (sumn_ext p (fun j => (z i j - sumn K (fun a => S i a * B a j)) * (z i j - sumn K (fun a => S i a * B a j)))
        (fun j => (z i j - sumn m (fun l => d l * q l j)) * (z i j - sumn m (fun l => d l * q l j)))).
      + rewrite (span_sq p m q (z i) d Hq). pose proof (sumn_nonneg m (fun l => (d l - ip p (z i) (q l)) * (d l - ip p (z i) (q l))) (fun l _ => Rle_0_sqr _)). lra.
      + intros j Hj. assert (E : sumn K (fun a => S i a * B a j) = sumn m (fun l => d l * q l j)); [|rewrite E; reflexivity].
        unfold d. rewrite (sumn_ext K _ (fun a => sumn m (fun l => S i a * c a l * q l j))).
        * rewrite sumn_exchange. apply sumn_ext. intros l Hl. rewrite <- sumn_scal_r. reflexivity.
        * intros a Ha. rewrite (Hc a j Ha Hj), <- sumn_scal. apply sumn_ext. intros; ring.
  Qed.
End KyFan.
