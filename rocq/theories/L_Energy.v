(** Euclidean distance is of negative type: the doubly centred distance
    matrix, with its sign changed, is a limit of sums of squares.  Hence
    squared distance covariances and martingale difference divergences of
    samples of any dimension are never negative. *)

From Coq Require Import String Reals List Arith ZArith Bool Lia Lra Psatz.
Import ListNotations.
From Verif Require Import Num Err Vec VecR OrdR L_Mat L_Lin S_Stats L_Stats M_Utils M_Preproc L_Radial L_Preproc S_Dicomo L_Dicomo5 L_Dicomo6 L_Dicomo7.
Import List. Open Scope R_scope.

Lemma Rabs_le_inv : forall a b, Rabs a <= b -> - b <= a <= b.
Proof. intros a b H. unfold Rabs in H. destruct (Rcase_abs a); lra. Qed.

Section Kernels.
  Variable n : nat.

  (** sums of squares: k(i,j) = sum_w w(i) w(j) *)
  Definition sos (k : nat -> nat -> R) : Prop := exists L : list (nat -> R), forall i j, k i j = vsum (map (fun w => w i * w j) L).
  (** approximable by sums of squares on the indices below n *)
  Definition psd (k : nat -> nat -> R) : Prop := forall eps, 0 < eps -> exists q, sos q /\ forall i j, (i < n)%nat -> (j < n)%nat -> Rabs (k i j - q i j) <= eps.

  Lemma sos_psd : forall k, sos k -> psd k.
  Proof. intros k Hk eps He. exists k. split; auto. intros. rewrite Rminus_diag_eq, Rabs_R0 by reflexivity. lra. Qed.
  Lemma sos_rank1 : forall w, sos (fun i j => w i * w j).
  Proof. intros w. exists [w]. intros. cbn. rnum. ring. Qed.
  Lemma sos_zero : sos (fun _ _ => 0). Proof. exists []. reflexivity. Qed.
  Lemma sos_const : forall c, 0 <= c -> sos (fun _ _ => c).
  Proof. intros c Hc. exists [fun _ => sqrt c]. intros. cbn. rnum. rewrite sqrt_sqrt by auto. ring. Qed.
  Lemma sos_add : forall a b, sos a -> sos b -> sos (fun i j => a i j + b i j).
  Proof. intros a b [L HL] [M HM]. exists (L ++ M). intros. rewrite map_app, vsum_app, HL, HM. reflexivity. Qed.
  Lemma sos_ext : forall a b, sos a -> (forall i j, b i j = a i j) -> sos b.
  Proof. intros a b [L HL] E. exists L. intros. rewrite E. apply HL. Qed.
  Lemma sos_mul : forall a b, sos a -> sos b -> sos (fun i j => a i j * b i j).
  Proof.
    intros a b [L HL] [M HM]. 
    apply (sos_ext (fun i j => vsum (map (fun w => w i * w j) L) * vsum (map (fun w => w i * w j) M))); [|intros; rewrite HL, HM; reflexivity].
    clear HL. induction L as [|w L IH].
    - apply (sos_ext (fun _ _ => 0)); [apply sos_zero|]. intros. cbn. rnum. ring.
    - apply (sos_ext (fun i j => vsum (map (fun v => (w i * v i) * (w j * v j)) M) + vsum (map (fun w => w i * w j) L) * vsum (map (fun w => w i * w j) M))).
      + apply sos_add; auto. exists (map (fun v i => w i * v i) M). intros. rewrite map_map. reflexivity.
      + intros. cbn [map]. rewrite vsum_cons. rewrite Rmult_plus_distr_r. f_equal. rewrite <- vsum_map_scal. f_equal. apply map_ext. intros. ring.
  Qed.

  Lemma bounded : forall (k : nat -> nat -> R), exists B, 0 < B /\ forall i j, (i < n)%nat -> (j < n)%nat -> Rabs (k i j) <= B.
  Proof.
    intros k.
    assert (H : forall (f : nat -> R) m, exists B, 0 < B /\ forall i, (i < m)%nat -> Rabs (f i) <= B).
    { intros f m. induction m as [|m [B [HB IH]]]; [exists 1; split; [lra|intros; lia]|].
      exists (B + Rabs (f m)). pose proof (Rabs_pos (f m)). split; [lra|]. intros i Hi. destruct (Nat.eq_dec i m) as [->|]; [lra|]. specialize (IH i ltac:(lia)). lra. }
    assert (G : forall m, exists B, 0 < B /\ forall i j, (i < m)%nat -> (j < n)%nat -> Rabs (k i j) <= B).
    { induction m as [|m [B [HB IH]]]; [exists 1; split; [lra|intros; lia]|]. destruct (H (k m) n) as [D [HD ID]].
      exists (B + D). split; [lra|]. intros i j Hi Hj. destruct (Nat.eq_dec i m) as [->|]; [specialize (ID j Hj); lra|]. specialize (IH i j ltac:(lia) Hj). lra. }
    apply G.
  Qed.

  Lemma psd_ext : forall a b, psd a -> (forall i j, (i < n)%nat -> (j < n)%nat -> b i j = a i j) -> psd b.
  Proof. intros a b Ha E eps He. destruct (Ha eps He) as [q [Hq Hd]]. exists q. split; auto. intros. rewrite E by auto. auto. Qed.
  Lemma psd_add : forall a b, psd a -> psd b -> psd (fun i j => a i j + b i j).
  Proof.
    intros a b Ha Hb eps He. destruct (Ha (eps/2) ltac:(lra)) as [q [Hq Hd]]. destruct (Hb (eps/2) ltac:(lra)) as [r [Hr Hd2]].
    exists (fun i j => q i j + r i j). split; [apply sos_add; auto|]. intros i j Hi Hj. specialize (Hd i j Hi Hj). specialize (Hd2 i j Hi Hj).
    replace (a i j + b i j - (q i j + r i j)) with ((a i j - q i j) + (b i j - r i j)) by ring.
    pose proof (Rabs_triang (a i j - q i j) (b i j - r i j)). lra.
  Qed.
  Lemma psd_mul : forall a b, psd a -> psd b -> psd (fun i j => a i j * b i j).
  Proof.
    intros a b Ha Hb eps He. destruct (bounded a) as [A [HA Ba]]. destruct (bounded b) as [B [HB Bb]].
    set (d := Rmin 1 (eps / (A + B + 1))).
    assert (Hd0 : 0 < d). { unfold d. apply Rmin_pos; [lra|]. apply Rdiv_lt_0_compat; lra. }
    destruct (Ha d Hd0) as [q [Hq Hd]]. destruct (Hb d Hd0) as [r [Hr Hd2]].
    exists (fun i j => q i j * r i j). split; [apply sos_mul; auto|]. intros i j Hi Hj.
    specialize (Hd i j Hi Hj). specialize (Hd2 i j Hi Hj). specialize (Ba i j Hi Hj). specialize (Bb i j Hi Hj).
    replace (a i j * b i j - q i j * r i j) with (a i j * (b i j - r i j) + (b i j * (a i j - q i j) - (a i j - q i j) * (b i j - r i j))) by ring.
    assert (D1 : d <= 1) by apply Rmin_l. assert (D2 : d * (A + B + 1) <= eps).
    { assert (d <= eps / (A + B + 1)) by apply Rmin_r. apply Rmult_le_reg_r with (/ (A + B + 1)); [apply Rinv_0_lt_compat; lra|].
      rewrite Rmult_assoc, Rinv_r by lra. unfold Rdiv in *. lra. }
    eapply Rle_trans; [apply Rabs_triang|]. eapply Rle_trans; [apply Rplus_le_compat_l, Rabs_triang|]. rewrite Rabs_Ropp, !Rabs_mult.
    pose proof (Rabs_pos (a i j)). pose proof (Rabs_pos (b i j)). pose proof (Rabs_pos (a i j - q i j)). pose proof (Rabs_pos (b i j - r i j)).
    assert (Rabs (a i j) * Rabs (b i j - r i j) <= A * d) by (apply Rmult_le_compat; auto).
    assert (Rabs (b i j) * Rabs (a i j - q i j) <= B * d) by (apply Rmult_le_compat; auto).
    assert (Rabs (a i j - q i j) * Rabs (b i j - r i j) <= d * 1) by (apply Rmult_le_compat; auto; lra). nra.
  Qed.
  Lemma psd_const : forall c, 0 <= c -> psd (fun _ _ => c).
  Proof. intros. apply sos_psd, sos_const. auto. Qed.
  Lemma psd_scale : forall c a, 0 <= c -> psd a -> psd (fun i j => c * a i j).
  Proof. intros c a Hc Ha. apply (psd_mul (fun _ _ => c)); auto. apply psd_const; auto. Qed.
  Lemma psd_rank1 : forall w, psd (fun i j => w i * w j).
  Proof. intros. apply sos_psd, sos_rank1. Qed.

  Lemma uniform : forall (ks : nat -> nat -> nat -> R) k, (forall i j, (i < n)%nat -> (j < n)%nat -> Un_cv (fun m => ks m i j) (k i j)) ->
    forall eps, 0 < eps -> exists m, forall i j, (i < n)%nat -> (j < n)%nat -> Rabs (ks m i j - k i j) < eps.
  Proof.
    intros ks k Hc eps He.
    assert (H : forall i m, (i < n)%nat -> (m <= n)%nat -> exists N, forall p j, (N <= p)%nat -> (j < m)%nat -> Rabs (ks p i j - k i j) < eps).
    { intros i m Hi. induction m as [|m IH]; intros Hm; [exists 0%nat; intros; lia|]. destruct (IH ltac:(lia)) as [N HN].
      destruct (Hc i m Hi ltac:(lia) eps He) as [M HM]. exists (Nat.max N M). intros p j Hp Hj. destruct (Nat.eq_dec j m) as [->|].
      - apply HM. lia.
      - apply HN; lia. }
    assert (G : forall m, (m <= n)%nat -> exists N, forall p i j, (N <= p)%nat -> (i < m)%nat -> (j < n)%nat -> Rabs (ks p i j - k i j) < eps).
    { induction m as [|m IH]; intros Hm; [exists 0%nat; intros; lia|]. destruct (IH ltac:(lia)) as [N HN].
      destruct (H m n ltac:(lia) (le_n n)) as [M HM]. exists (Nat.max N M). intros p i j Hp Hi Hj. destruct (Nat.eq_dec i m) as [->|].
      - apply HM; auto; lia.
      - apply HN; auto; lia. }
    destruct (G n (le_n n)) as [N HN]. exists N. intros. apply HN; auto.
  Qed.

  Lemma psd_lim : forall ks k, (forall m, psd (ks m)) -> (forall i j, (i < n)%nat -> (j < n)%nat -> Un_cv (fun m => ks m i j) (k i j)) -> psd k.
  Proof.
    intros ks k Hk Hc eps He. destruct (uniform ks k Hc (eps/2) ltac:(lra)) as [m Hm]. destruct (Hk m (eps/2) ltac:(lra)) as [q [Hq Hd]].
    exists q. split; auto. intros i j Hi Hj. specialize (Hm i j Hi Hj). specialize (Hd i j Hi Hj).
    replace (k i j - q i j) with (- (ks m i j - k i j) + (ks m i j - q i j)) by ring.
    eapply Rle_trans; [apply Rabs_triang|]. rewrite Rabs_Ropp. lra.
  Qed.

  Lemma psd_pow : forall a m, psd a -> psd (fun i j => a i j ^ m).
  Proof.
    intros a m Ha. induction m as [|m IH]; [apply (psd_ext (fun _ _ => 1)); [apply psd_const; lra|reflexivity]|].
    apply (psd_ext (fun i j => a i j * a i j ^ m)); [apply psd_mul; auto|]. reflexivity.
  Qed.
  Lemma psd_exp : forall a, psd a -> psd (fun i j => exp (a i j)).
  Proof.
    intros a Ha. apply (psd_lim (fun m i j => sum_f_R0 (fun l => / INR (fact l) * a i j ^ l) m)).
    - induction m as [|m IH]; cbn [sum_f_R0].
      + apply psd_scale; [|apply psd_pow; auto]. apply Rlt_le, Rinv_0_lt_compat, INR_fact_lt_0.
      + apply psd_add; auto. apply psd_scale; [|apply psd_pow; auto]. apply Rlt_le, Rinv_0_lt_compat, INR_fact_lt_0.
    - intros i j _ _. unfold exp. destruct (exist_exp (a i j)) as [l Hl]. cbn [proj1_sig]. exact Hl.
  Qed.

  (** 1 - sqrt(1-u) as the limit of s <- (u + s^2)/2 *)
  Fixpoint sit (u : R) (m : nat) : R := match m with O => 0 | S m' => (u + sit u m' * sit u m') / 2 end.
  Lemma sit_bounds : forall u m, 0 <= u <= 1 -> let s := 1 - sqrt (1 - u) in 0 <= s - sit u m <= 2 / (INR m + 2) /\ 0 <= sit u m.
  Proof.
    intros u m Hu s. assert (Q : sqrt (1 - u) * sqrt (1 - u) = 1 - u) by (apply sqrt_sqrt; lra).
    assert (Q0 : 0 <= sqrt (1 - u)) by apply sqrt_pos. assert (Q1 : sqrt (1 - u) <= 1) by nra.
    assert (S0 : s = (u + s * s) / 2) by (unfold s; nra). assert (S1 : 0 <= s <= 1) by (unfold s; lra).
    induction m as [|m [[I1 I2] I3]].
    - cbn [sit INR]. lra.
    - cbn [sit]. rewrite S_INR. pose proof (pos_INR m) as Pm. set (x := INR m) in *. set (t := sit u m) in *.
      split; [|nra]. split; [nra|]. 
      assert (E : s - (u + t * t) / 2 = (s - t) * (s + t) / 2) by (rewrite S0 at 1; field). rewrite E.
      assert (He : (s - t) * (s + t) / 2 <= (s - t) * (1 - (s - t) / 2)) by nra. clearbody x t. set (e := s - t) in *.
      eapply Rle_trans; [exact He|]. set (b := 2 / (x + 2)) in *. assert (Hb : 0 < b <= 1).
      { unfold b. split; [apply Rdiv_lt_0_compat; lra|]. apply Rmult_le_reg_r with (x + 2); [lra|]. unfold Rdiv. rewrite Rmult_assoc, Rinv_l by lra. lra. }
      apply Rle_trans with (b * (1 - b / 2)); [nra|].
      unfold b. replace (2 / (x + 2) * (1 - 2 / (x + 2) / 2)) with (2 * (x + 1) / ((x + 2) * (x + 2))) by (field; lra).
      apply Rmult_le_reg_r with ((x + 2) * (x + 2) * (x + 1 + 2)); [nra|].
      replace (2 * (x + 1) / ((x + 2) * (x + 2)) * ((x + 2) * (x + 2) * (x + 1 + 2))) with (2 * (x + 1) * (x + 3)) by (field; lra).
      replace (2 / (x + 1 + 2) * ((x + 2) * (x + 2) * (x + 1 + 2))) with (2 * (x + 2) * (x + 2)) by (field; lra). nra.
  Qed.
  Lemma sit_cv : forall u, 0 <= u <= 1 -> Un_cv (sit u) (1 - sqrt (1 - u)).
  Proof.
    intros u Hu eps He. destruct (archimed (2 / eps)) as [Ha _]. 
    exists (Z.to_nat (up (2 / eps))). intros m Hm. destruct (sit_bounds u m Hu) as [[B1 B2] _]. unfold R_dist. rewrite Rabs_minus_sym, Rabs_pos_eq by auto.
    eapply Rle_lt_trans; [exact B2|]. assert (0 < 2 / eps) by (apply Rdiv_lt_0_compat; lra).
    assert (Hz : (0 <= up (2 / eps))%Z) by (apply le_IZR; lra).
    assert (IZR (up (2/eps)) <= INR m). { rewrite INR_IZR_INZ. apply IZR_le. lia. }
    assert (2 / eps < INR m + 2) by lra. apply Rmult_lt_reg_r with (INR m + 2); [lra|].
    unfold Rdiv at 1. rewrite Rmult_assoc, Rinv_l by lra. assert (2 = 2 / eps * eps) by (field; lra). nra.
  Qed.
  Lemma psd_sit : forall u m, psd u -> psd (fun i j => sit (u i j) m).
  Proof.
    intros u m Hu. induction m as [|m IH]; cbn [sit]; [apply psd_const; lra|].
    apply (psd_ext (fun i j => / 2 * (u i j + sit (u i j) m * sit (u i j) m))); [|intros; unfold Rdiv; ring].
    apply psd_scale; [lra|]. apply psd_add; auto. apply psd_mul; auto.
  Qed.
  Lemma psd_root : forall u, psd u -> (forall i j, (i < n)%nat -> (j < n)%nat -> 0 <= u i j <= 1) -> psd (fun i j => 1 - sqrt (1 - u i j)).
  Proof. intros u Hu Hb. apply (psd_lim (fun m i j => sit (u i j) m)); [intros; apply psd_sit; auto|]. intros i j Hi Hj. apply sit_cv. auto. Qed.

  Hypothesis Hn : (0 < n)%nat.

  (** double centring keeps the class *)
  Lemma sos_dcentred : forall a, sos a -> sos (dcentred n a).
  Proof.
    intros a [L HL]. assert (N : INR n <> 0) by (apply not_0_INR; lia).
    exists (map (fun w i => w i - sumn n w / INR n) L). intros i j. rewrite map_map, dcentred_sumn. 
    rewrite (sumn_ext n (fun k => a i k) (fun k => vsum (map (fun w => w i * w k) L))) by (intros; apply HL).
    rewrite (sumn_ext n (fun k => a k j) (fun k => vsum (map (fun w => w k * w j) L))) by (intros; apply HL).
    rewrite (sumn_ext n (fun k => sumn n (fun l => a k l)) (fun k => sumn n (fun l => vsum (map (fun w => w k * w l) L)))) by (intros; apply sumn_ext; intros; apply HL).
    rewrite HL. clear HL. induction L as [|w L IH]; cbn [map].
    - change (@vsum R Num_R []) with 0. rewrite (sumn_zero n (fun k => sumn n (fun l => 0))) by (intros; apply sumn_zero; reflexivity).
      rewrite !(sumn_zero n (fun k => 0)) by reflexivity. unfold Rdiv. ring.
    - rewrite !vsum_cons. rewrite <- IH. clear IH.
      rewrite (sumn_ext n (fun k => vsum (w i * w k :: _)) (fun k => w i * w k + vsum (map (fun w => w i * w k) L))) by (intros; apply vsum_cons).
      rewrite (sumn_ext n (fun k => vsum (w k * w j :: _)) (fun k => w k * w j + vsum (map (fun w => w k * w j) L))) by (intros; apply vsum_cons).
      rewrite (sumn_ext n (fun k => sumn n (fun l => vsum (w k * w l :: _))) (fun k => w k * sumn n w + sumn n (fun l => vsum (map (fun w => w k * w l) L)))).
      2:{ intros k Hk. rewrite <- sumn_scal, <- sumn_plus. apply sumn_ext. intros. apply vsum_cons. }
      rewrite !sumn_plus, (sumn_scal n (w i) w), !(sumn_scal_r n _ w). field. auto.
  Qed.
  Lemma psd_dcentred : forall a, psd a -> psd (dcentred n a).
  Proof.
    intros a Ha eps He. assert (N : 0 < INR n) by (apply lt_0_INR; lia). destruct (Ha (eps / 4) ltac:(lra)) as [q [Hq Hd]].
    exists (dcentred n q). split; [apply sos_dcentred; auto|]. intros i j Hi Hj.
    assert (AB : forall f g : nat -> R, (forall k, (k < n)%nat -> Rabs (f k - g k) <= eps / 4) -> Rabs (sumn n f / INR n - sumn n g / INR n) <= eps / 4).
    { intros f g Hfg. replace (sumn n f / INR n - sumn n g / INR n) with (sumn n (fun k => f k - g k) / INR n) by (rewrite sumn_minus; unfold Rdiv; ring).
      unfold Rdiv. rewrite Rabs_mult, (Rabs_pos_eq (/ INR n)) by (apply Rlt_le, Rinv_0_lt_compat; auto).
      apply Rmult_le_reg_r with (INR n); [auto|]. rewrite Rmult_assoc, Rinv_l by lra. rewrite Rmult_1_r.
      assert (Rabs (sumn n (fun k => f k - g k)) <= sumn n (fun _ => eps / 4)).
      { apply Rabs_le. split.
        - replace (- sumn n (fun _ => eps / 4)) with (sumn n (fun _ => - (eps / 4))) by (rewrite !sumn_const; ring). apply sumn_le. intros k Hk. specialize (Hfg k Hk). apply Rabs_le_inv in Hfg. lra.
        - apply sumn_le. intros k Hk. specialize (Hfg k Hk). apply Rabs_le_inv in Hfg. lra. }
      rewrite sumn_const in H. unfold Rdiv in H. lra. }
    assert (G2 : forall d, sumn n (fun k => sumn n (fun l => d k l)) / (INR n * INR n) = sumn n (fun k => sumn n (fun l => d k l) / INR n) / INR n).
    { intros d. rewrite (sumn_ext n (fun k => sumn n (fun l => d k l) / INR n) (fun k => sumn n (fun l => d k l) * / INR n)) by reflexivity.
      rewrite sumn_scal_r. field. lra. }
    rewrite !dcentred_sumn, !G2.
    pose proof (Hd i j Hi Hj) as E1. pose proof (AB (fun k => a i k) (fun k => q i k) (fun k Hk => Hd i k Hi Hk)) as E2.
    pose proof (AB (fun k => a k j) (fun k => q k j) (fun k Hk => Hd k j Hk Hj)) as E3.
    pose proof (AB (fun k => sumn n (fun l => a k l) / INR n) (fun k => sumn n (fun l => q k l) / INR n) (fun k Hk => AB (fun l => a k l) (fun l => q k l) (fun l Hl => Hd k l Hk Hl))) as E4.
    apply Rabs_le_inv in E1, E2, E3, E4. apply Rabs_le. split; lra.
  Qed.

  Lemma sos_sum : forall a, sos a -> 0 <= sumn n (fun i => sumn n (fun j => a i j)).
  Proof.
    intros a [L HL]. rewrite (sumn_ext n _ (fun i => sumn n (fun j => vsum (map (fun w => w i * w j) L)))) by (intros; apply sumn_ext; intros; apply HL).
    clear HL. induction L as [|w L IH].
    - rewrite sumn_zero; [lra|]. intros. apply sumn_zero. reflexivity.
    - rewrite (sumn_ext n _ (fun i => w i * sumn n w + sumn n (fun j => vsum (map (fun w => w i * w j) L)))).
      2:{ intros i Hi. rewrite <- sumn_scal, <- sumn_plus. apply sumn_ext. intros. cbn [map]. apply vsum_cons. }
      rewrite sumn_plus, (sumn_scal_r n _ w). nra.
  Qed.
  Lemma psd_sum : forall a, psd a -> 0 <= sumn n (fun i => sumn n (fun j => a i j)).
  Proof.
    intros a Ha. destruct (Rle_dec 0 (sumn n (fun i => sumn n (fun j => a i j)))) as [|Hneg]; auto. exfalso.
    apply Rnot_le_lt in Hneg. set (T := sumn n (fun i => sumn n (fun j => a i j))) in *. assert (N : 0 < INR n) by (apply lt_0_INR; lia).
    assert (NN : 0 < INR n * INR n) by nra.
    destruct (Ha (- T / (2 * (INR n * INR n)))) as [q [Hq Hd]]; [apply Rdiv_lt_0_compat; lra|].
    pose proof (sos_sum q Hq) as Hs.
    assert (Hle : sumn n (fun i => sumn n (fun j => q i j)) <= sumn n (fun i => sumn n (fun j => a i j + - T / (2 * (INR n * INR n))))).
    { apply sumn_le. intros i Hi. apply sumn_le. intros j Hj. specialize (Hd i j Hi Hj). apply Rabs_le_inv in Hd. lra. }
    rewrite (sumn_ext n (fun i => sumn n (fun j => a i j + _)) (fun i => sumn n (fun j => a i j) + INR n * (- T / (2 * (INR n * INR n))))) in Hle
      by (intros; rewrite sumn_plus, sumn_const; reflexivity).
    rewrite sumn_plus, sumn_const in Hle. fold T in Hle.
    assert (E : INR n * (INR n * (- T / (2 * (INR n * INR n)))) = - T / 2) by (field; lra). rewrite E in Hle. lra.
  Qed.

  (** square roots of squared euclidean distances *)
  Variables (p : nat) (X : list (list R)).
  Hypothesis HX : wf n p X.
  Let x i l := mget X i l.
  Let sq i := sumn p (fun l => x i l * x i l).
  Let dt i j := sumn p (fun l => x i l * x j l).
  Let psi i j := sq i + sq j - 2 * dt i j.

  Lemma psi_sumn : forall i j, psi i j = sumn p (fun l => (x i l - x j l) * (x i l - x j l)).
  Proof.
    intros. unfold psi, sq, dt. rewrite (sumn_ext p (fun l => (x i l - x j l) * (x i l - x j l)) (fun l => (x i l * x i l + x j l * x j l) - 2 * (x i l * x j l))) by (intros; ring).
    rewrite sumn_minus, sumn_plus, (sumn_scal p 2 (fun l => x i l * x j l)). reflexivity.
  Qed.
  Lemma psi_nonneg : forall i j, 0 <= psi i j.
  Proof. intros. rewrite psi_sumn. apply sumn_nonneg. intros. apply Rle_0_sqr. Qed.
  Lemma psi_rowdist : forall i j, (i < n)%nat -> (j < n)%nat -> rowdist X i j = sqrt (psi i j).
  Proof.
    intros i j Hi Hj. unfold rowdist, edist. f_equal. rewrite sqdist_dot, psi_sumn.
    assert (L : length (vsub (nth i X []) (nth j X [])) = p) by (unfold vsub; rewrite map2_length, !(wf_nth_row n p X) by auto; lia).
    rewrite (dot_sumn _ _ p) by auto. apply sumn_ext. intros l Hl. rewrite !nth_vsub by (rewrite !(wf_nth_row n p X) by auto; auto). reflexivity.
  Qed.
  Lemma dt_sos : sos dt.
  Proof. exists (map (fun l i => x i l) (seq 0 p)). intros. rewrite map_map. reflexivity. Qed.
  Lemma gauss_psd : forall t, 0 <= t -> psd (fun i j => exp (- (t * psi i j))).
  Proof.
    intros t Ht. apply (psd_ext (fun i j => (exp (- (t * sq i)) * exp (- (t * sq j))) * exp (2 * t * dt i j))).
    - apply psd_mul; [apply (psd_rank1 (fun i => exp (- (t * sq i))))|]. apply psd_exp. apply psd_scale; [lra|]. apply sos_psd, dt_sos.
    - intros. rewrite <- !exp_plus. f_equal. unfold psi. ring.
  Qed.
  Let tm (m : nat) := / (INR m + 1).
  Lemma tm_pos : forall m, 0 < tm m.
  Proof. intros. unfold tm. apply Rinv_0_lt_compat. pose proof (pos_INR m). lra. Qed.

  Lemma exp_sandwich : forall t z, 0 < t -> 0 <= z -> z / (1 + t * z) <= (1 - exp (- (t * z))) / t <= z.
  Proof.
    intros t z Ht Hz. assert (0 <= t * z) by nra. pose proof (exp_ineq1_le (t * z)) as E1. pose proof (exp_ineq1_le (- (t * z))) as E2. split.
    - apply Rmult_le_reg_r with t; auto. unfold Rdiv at 2. rewrite Rmult_assoc, Rinv_l by lra. rewrite Rmult_1_r.
      assert (exp (- (t * z)) <= / (1 + t * z)). { rewrite exp_Ropp. apply Rinv_le_contravar; lra. }
      assert (z / (1 + t * z) * t = 1 - / (1 + t * z)) by (field; lra). lra.
    - apply Rmult_le_reg_r with t; auto. unfold Rdiv. rewrite Rmult_assoc, Rinv_l by lra. lra.
  Qed.
  Lemma small_cv : forall z, 0 <= z -> Un_cv (fun m => (1 - exp (- (tm m * z))) / tm m) z.
  Proof.
    intros z Hz eps He. destruct (archimed (z * z / eps)) as [Ha _]. exists (Z.to_nat (up (z * z / eps))). intros m Hm.
    pose proof (tm_pos m) as Ht. destruct (exp_sandwich (tm m) z Ht Hz) as [S1 S2]. unfold R_dist. rewrite Rabs_minus_sym, Rabs_pos_eq by lra.
    assert (D : z - z / (1 + tm m * z) <= tm m * (z * z)).
    { assert (0 < 1 + tm m * z) by nra. replace (z - z / (1 + tm m * z)) with (tm m * (z * z) * / (1 + tm m * z)) by (field; lra).
      assert (/ (1 + tm m * z) <= 1). { rewrite <- Rinv_1. apply Rinv_le_contravar; nra. } assert (0 <= tm m * (z * z)) by nra. 
      rewrite <- (Rmult_1_r (tm m * (z * z))) at 2. apply Rmult_le_compat_l; auto. }
    assert (0 <= z * z / eps). { apply Rmult_le_pos; [nra|]. apply Rlt_le, Rinv_0_lt_compat; auto. }
    assert (Hz2 : (0 <= up (z * z / eps))%Z) by (apply le_IZR; lra).
    assert (IZR (up (z * z / eps)) <= INR m). { rewrite INR_IZR_INZ. apply IZR_le. lia. }
    assert (tm m * (z * z) < eps); [|lra]. apply Rmult_lt_reg_r with (INR m + 1); [pose proof (pos_INR m); lra|].
    unfold tm. pose proof (pos_INR m). replace (/ (INR m + 1) * (z * z) * (INR m + 1)) with (z * z) by (field; lra).
    assert (z * z = z * z / eps * eps) by (field; lra). nra.
  Qed.
  Lemma root_cv : forall z, 0 <= z -> Un_cv (fun m => sqrt ((1 - exp (- (tm m * z))) / tm m)) (sqrt z).
  Proof.
    intros z Hz. apply (continuity_seq sqrt (fun m => (1 - exp (- (tm m * z))) / tm m) z); [|apply small_cv; auto].
    apply continuity_pt_sqrt. auto.
  Qed.

  Lemma dcentred_cv : forall (ks : nat -> nat -> nat -> R) k, (forall i j, (i < n)%nat -> (j < n)%nat -> Un_cv (fun m => ks m i j) (k i j)) ->
    forall i j, (i < n)%nat -> (j < n)%nat -> Un_cv (fun m => dcentred n (ks m) i j) (dcentred n k i j).
  Proof.
    intros ks k Hc i j Hi Hj.
    assert (Sc : forall (fs : nat -> nat -> R) f q, (forall l, (l < q)%nat -> Un_cv (fun m => fs m l) (f l)) -> Un_cv (fun m => sumn q (fs m)) (sumn q f)).
    { intros fs f q. induction q as [|q IH]; intros Hf.
      - intros eps He. exists 0%nat. intros. unfold R_dist. cbn. rnum. rewrite Rminus_diag_eq, Rabs_R0 by reflexivity. auto.
      - apply (Un_cv_ext (fun m => sumn q (fs m) + fs m q)); [intros; rewrite sumn_S; reflexivity|]. rewrite sumn_S.
        apply (CV_plus (fun m => sumn q (fs m)) (fun m => fs m q)); [apply IH; intros; apply Hf; lia|apply Hf; lia]. }
    assert (Dc : forall (f : nat -> R) l c, Un_cv f l -> Un_cv (fun m => f m / c) (l / c)).
    { intros f l c Hf. apply (CV_mult f (fun _ => / c)); auto. intros eps He. exists 0%nat. intros. unfold R_dist. rewrite Rminus_diag_eq, Rabs_R0 by reflexivity. auto. }
    apply (Un_cv_ext (fun m => ks m i j - sumn n (fun k => ks m i k) / INR n - sumn n (fun k => ks m k j) / INR n + sumn n (fun k => sumn n (fun l => ks m k l)) / (INR n * INR n))).
    { intros m. rewrite dcentred_sumn. reflexivity. }
    rewrite dcentred_sumn.
    apply (CV_plus (fun m => ks m i j - sumn n (fun k => ks m i k) / INR n - sumn n (fun k => ks m k j) / INR n)).
    - apply (CV_minus (fun m => ks m i j - sumn n (fun k => ks m i k) / INR n)).
      + apply (CV_minus (fun m => ks m i j)); [apply Hc; auto|]. apply Dc. apply (Sc (fun m k => ks m i k)). intros; apply Hc; auto.
      + apply Dc. apply (Sc (fun m k => ks m k j)). intros; apply Hc; auto.
    - apply Dc. apply (Sc (fun m k => sumn n (fun l => ks m k l))). intros l Hl. apply (Sc (fun m l' => ks m l l')). intros; apply Hc; auto.
  Qed.

  Lemma dcentred_shift : forall c a i j, (i < n)%nat -> (j < n)%nat -> dcentred n (fun k l => c - a k l) i j = - dcentred n a i j.
  Proof.
    intros c a i j Hi Hj. assert (N : INR n <> 0) by (apply not_0_INR; lia). rewrite !dcentred_sumn.
    rewrite (sumn_ext n (fun k => sumn n (fun l => c - a k l)) (fun k => INR n * c - sumn n (fun l => a k l))) by (intros; rewrite sumn_minus, sumn_const; reflexivity).
    rewrite (sumn_minus n (fun _ => c) (fun k => a i k)), (sumn_minus n (fun _ => c) (fun k => a k j)), (sumn_minus n (fun _ => INR n * c) (fun k => sumn n (fun l => a k l))), !sumn_const. field. auto.
  Qed.

  Theorem neg_dist_psd : psd (fun i j => - dcentred n (rowdist X) i j).
  Proof.
    apply (psd_ext (fun i j => - dcentred n (fun k l => sqrt (psi k l)) i j)).
    2:{ intros i j Hi Hj. f_equal. apply dcentred_ext; auto. intros. apply psi_rowdist; auto. }
    apply (psd_lim (fun m i j => - dcentred n (fun k l => sqrt ((1 - exp (- (tm m * psi k l))) / tm m)) i j)).
    - intros m. pose proof (tm_pos m) as Ht. pose proof (sqrt_lt_R0 _ Ht) as St.
      set (g := fun i j => / sqrt (tm m) * (1 - sqrt (1 - exp (- (tm m * psi i j))))).
      assert (Eb : forall i j, 0 <= exp (- (tm m * psi i j)) <= 1).
      { intros i j. split; [apply Rlt_le, exp_pos|]. rewrite <- exp_0. pose proof (psi_nonneg i j). destruct (Req_dec (tm m * psi i j) 0) as [->|].
        - rewrite Ropp_0. lra.
        - apply Rlt_le, exp_increasing. nra. }
      apply (psd_ext (dcentred n g)).
      + apply psd_dcentred. apply psd_scale; [apply Rlt_le, Rinv_0_lt_compat; auto|]. apply psd_root; auto. apply gauss_psd. lra.
      + intros i j Hi Hj. rewrite (dcentred_ext n _ (fun k l => / sqrt (tm m) - g k l)) by (auto; intros k l _ _; unfold g; rewrite sqrt_div by (try lra; specialize (Eb k l); lra); field; lra).
        rewrite dcentred_shift by auto. ring.
    - intros i j Hi Hj. apply (Un_cv_ext (fun m => opp_seq (fun m => dcentred n (fun k l => sqrt ((1 - exp (- (tm m * psi k l))) / tm m)) i j) m)); [reflexivity|].
      apply CV_opp. apply (dcentred_cv (fun m k l => sqrt ((1 - exp (- (tm m * psi k l))) / tm m))); auto. intros. apply root_cv. apply psi_nonneg.
  Qed.
End Kernels.

Theorem dcov_sq_nonneg : forall n p q X Y, is_matrix n p X -> is_matrix n q Y -> (0 < n)%nat -> 0 <= dcov_sq n X Y.
Proof.
  intros n p q X Y HX HY Hn. apply is_matrix_wf in HX. apply is_matrix_wf in HY. rewrite dcov_sq_sumn.
  assert (0 < INR n) by (apply lt_0_INR; auto). apply Rmult_le_pos; [|apply Rlt_le, Rinv_0_lt_compat; nra].
  pose proof (psd_sum n Hn _ (psd_mul n _ _ (neg_dist_psd n Hn p X HX) (neg_dist_psd n Hn q Y HY))) as H1.
  rewrite (sumn_ext n _ (fun i => sumn n (fun j => dcentred n (rowdist X) i j * dcentred n (rowdist Y) i j))) in H1; [exact H1|].
  intros. apply sumn_ext. intros. ring.
Qed.

Theorem mdd_sq_nonneg : forall n p X y, is_matrix n p X -> (0 < n)%nat -> length y = n -> 0 <= mdd_sq n X y.
Proof.
  intros n p X y HX Hn Hl. apply is_matrix_wf in HX. set (c := fun i => nth i y 0 - mean_of y).
  assert (E : mdd_sq n X y = sumn n (fun i => sumn n (fun j => - dcentred n (rowdist X) i j * (c i * c j))) / (INR n * INR n)).
  { unfold mdd_sq. rewrite sum_below_sumn.
    rewrite (sumn_ext n (fun i => sum_below n _) (fun i => sumn n (fun j => rowdist X i j * (c i * c j)))) by (intros; apply sum_below_sumn).
    rewrite <- (dcentred_pair n (rowdist X) c Hn (sum_dev_0 n y Hl Hn)).
    rewrite (sumn_ext n (fun i => sumn n (fun j => - dcentred n (rowdist X) i j * (c i * c j))) (fun i => -1 * sumn n (fun j => dcentred n (rowdist X) i j * (c i * c j)))).
    - rewrite (sumn_scal n (-1)). unfold Rdiv. ring.
    - intros i Hi. rewrite <- sumn_scal. apply sumn_ext. intros. ring. }
  rewrite E. assert (0 < INR n) by (apply lt_0_INR; auto). apply Rmult_le_pos; [|apply Rlt_le, Rinv_0_lt_compat; nra].
  apply (psd_sum n Hn). apply (psd_mul n (fun i j => - dcentred n (rowdist X) i j)); [apply (neg_dist_psd n Hn p); auto|]. apply psd_rank1.
Qed.
