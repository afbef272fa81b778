(** The grid covers all directions; the refinement may lose the optimum. *)

From Coq Require Import Reals List Arith ZArith Bool Lia Lra Psatz.
Import ListNotations.
From Verif Require Import Num Err Vec VecR L_Mat L_Lin M_Utils M_Dicomo M_Ppdire S_Stats S_Regress L_Stats L_Snipls S_Ppdire L_Grid L_Grid2.
Open Scope R_scope.

Lemma covering_half : forall ndir a b, (0 < ndir)%nat -> a * a + b * b = 1 -> 0 <= b ->
  exists k, (k < ndir)%nat /\ cos (PI / (2 * INR ndir)) <= Rabs (a * cos (angle1 ndir k) + b * sin (angle1 ndir k)).
Proof.
  intros ndir a b Hn E Hb. set (N := INR ndir). assert (HN : 1 <= N) by (unfold N; replace 1 with (INR 1) by reflexivity; apply le_INR; lia).
  assert (Ha : -1 <= a <= 1) by nra. set (t := acos a). destruct (acos_bound a) as [T0 T1]. fold t in T0, T1.
  assert (Ec : cos t = a) by (apply cos_acos; auto).
  assert (Es : sin t = b).
  { unfold t. rewrite sin_acos by auto. replace (1 - Rsqr a) with (b * b) by (unfold Rsqr; lra). apply sqrt_square; auto. }
  pose proof PI_RGT_0 as HP. set (x := t * N / PI + 1 / 2).
  assert (Hx0 : 0 <= t * N / PI) by (apply Rmult_le_pos; [nra|apply Rlt_le, Rinv_0_lt_compat; auto]).
  assert (Hx1 : t * N / PI <= N). { apply (Rmult_le_reg_r PI); auto. replace (t * N / PI * PI) with (t * N) by (field; lra). nra. }
  set (z := Int_part x). destruct (base_Int_part x) as [B1 B2]. fold z in B1, B2.
  assert (Hz0 : (0 <= z)%Z). { apply Z.lt_succ_r. apply lt_IZR. rewrite succ_IZR. unfold x in *. lra. }
  set (j := Z.to_nat z). assert (Ej : INR j = IZR z) by (unfold j; rewrite INR_IZR_INZ, Z2Nat.id by auto; reflexivity).
  assert (Hj : (j <= ndir)%nat). { apply Nat.lt_succ_r, INR_lt. rewrite S_INR. fold N. rewrite Ej. unfold x in *. lra. }
  set (d := t - INR j * PI / N).
  assert (Hd : - (PI / (2 * N)) <= d <= PI / (2 * N)).
  { assert (Ed : d = (t * N / PI - INR j) * (PI / N)) by (unfold d; field; split; lra).
    assert (Hpn : 0 < PI / N) by (apply Rmult_lt_0_compat; [auto|apply Rinv_0_lt_compat; lra]).
    assert (Eh : PI / (2 * N) = 1 / 2 * (PI / N)) by (field; lra). rewrite Ed, Eh, Ej. unfold x in *. split; nra. }
  assert (Hhalf : PI / (2 * N) <= PI / 2).
  { assert (Eh : PI / (2 * N) * (2 * N) = PI) by (field; lra). assert (0 <= PI / (2 * N)) by lra. nra. }
  assert (Hcos : cos (PI / (2 * N)) <= cos d).
  { destruct (Rle_dec 0 d) as [D|D].
    - apply cos_decr_1; lra.
    - rewrite <- (cos_neg d). apply cos_decr_1; lra. }
  assert (Hc0 : 0 <= cos d) by (apply cos_ge_0; lra).
  destruct (Nat.eq_dec j ndir) as [Ejn|Nj].
  - exists 0%nat. split; [lia|]. unfold angle1. cbn [INR]. replace (0 * PI / INR ndir) with 0 by (unfold Rdiv; ring). rewrite cos_0, sin_0.
    assert (Ed : d = t - PI) by (unfold d; rewrite Ejn; fold N; field; lra).
    assert (Ea : a = - cos d). { rewrite Ed, cos_minus, cos_PI, sin_PI, Ec. ring. }
    rewrite Ea. replace (- cos d * 1 + b * 0) with (- cos d) by ring. rewrite Rabs_Ropp, Rabs_right by lra. exact Hcos.
  - exists j. split; [lia|]. assert (Ed : d = t - angle1 ndir j) by (unfold d, angle1; reflexivity).
    replace (a * cos (angle1 ndir j) + b * sin (angle1 ndir j)) with (cos d) by (rewrite Ed, cos_minus, Ec, Es; ring).
    rewrite Rabs_right by lra. exact Hcos.
Qed.
Lemma covering_l : forall ndir a b, (0 < ndir)%nat -> a * a + b * b = 1 ->
  exists k, (k < ndir)%nat /\ cos (PI / (2 * INR ndir)) <= Rabs (a * cos (angle1 ndir k) + b * sin (angle1 ndir k)).
Proof.
  intros ndir a b Hn E. destruct (Rle_dec 0 b) as [B|B]; [apply covering_half; auto|].
  destruct (covering_half ndir (- a) (- b) Hn) as (k & Hk & H); [lra|lra|]. exists k. split; auto.
  replace (- a * cos (angle1 ndir k) + - b * sin (angle1 ndir k)) with (- (a * cos (angle1 ndir k) + b * sin (angle1 ndir k))) in H by ring.
  rewrite Rabs_Ropp in H. exact H.
Qed.

Lemma first_argmax : forall n (f : nat -> R), (0 < n)%nat -> exists k, (k < n)%nat /\ forall i, (i < n)%nat -> f i <= f k /\ ((i < k)%nat -> f i < f k).
Proof.
  induction n as [|n IH]; intros f Hn; [lia|]. destruct n as [|n].
  - exists 0%nat. split; [lia|]. intros i Hi. assert (i = 0)%nat by lia. subst. split; [lra|lia].
  - destruct (IH f ltac:(lia)) as (k & Hk & Hf). destruct (Rlt_dec (f k) (f (S n))) as [L|L].
    + exists (S n). split; [lia|]. intros i Hi. destruct (Nat.eq_dec i (S n)) as [->|Hne]; [split; [lra|lia]|]. destruct (Hf i ltac:(lia)). split; [lra|intros; lra].
    + exists k. split; [lia|]. intros i Hi. destruct (Nat.eq_dec i (S n)) as [->|Hne]; [split; [lra|lia]|]. apply Hf. lia.
Qed.

(** a total index always yields a first best direction *)
Lemma first_best_exists : forall n dir (value : R -> R -> R -> Prop), (0 < n)%nat -> (forall k, (k < n)%nat -> exists v, value (fst (dir k)) (snd (dir k)) v) ->
  (forall a b v w, value a b v -> value a b w -> v = w) -> exists a b m, first_best n dir value a b m.
Proof.
  intros n dir value Hn Ht Hu.
  assert (HF : exists f : nat -> R, forall k, (k < n)%nat -> value (fst (dir k)) (snd (dir k)) (f k)).
  { clear Hn. induction n as [|n IH]; [exists (fun _ => 0); intros; lia|]. destruct IH as [f Hf]; [intros; apply Ht; lia|].
    destruct (Ht n) as [v Hv]; [lia|]. exists (fun k => if (k =? n)%nat then v else f k). intros k Hk.
    destruct (Nat.eqb_spec k n) as [->|]; auto. apply Hf. lia. }
  destruct HF as [f Hf]. destruct (first_argmax n f Hn) as (k & Hk & Hm). destruct (dir k) as [a b] eqn:Ed. exists a, b, (f k), k.
  split; auto. split; auto. split; [specialize (Hf k Hk); rewrite Ed in Hf; exact Hf|].
  intros i Hi. exists (f i). split; [apply Hf; auto|]. apply Hm; auto.
Qed.

(** ** an index with a spike at one sample *)
Definition flat (a : arr R) : list R := match a with A1 v => v | A2 X => concat X end.
Definition spike (a : arr R) (_ : dkw R) : res R := Ok (if list_eq_dec Req_EM_T (flat a) [1; 0; 0] then 2 else 1).
Definition I3 : list (list R) := [[1; 0; 0]; [0; 1; 0]; [0; 0; 1]].

Section Spike.
  Variables (g g2 : gargs R).
  Hypothesis HG : grid_args g g2.
  Hypothesis Hsq : ga_square g = false.
  Hypothesis Hev : Nat.even (ga_ndir g) = true.
  Hypothesis Hnd : (2 <= ga_ndir g)%nat.

  Lemma spike_val : forall v m, ival spike g v m <-> m = if list_eq_dec Req_EM_T v [1; 0; 0] then 2 else 1.
  Proof.
    intros v m. unfold ival, sample_value, spike. cbn [flat]. rewrite Hsq. split.
    - intros (u & E & ->). apply Ok_inj in E as <-. reflexivity.
    - intros ->. eexists. split; reflexivity.
  Qed.
  Lemma spike_val2 : forall m v, ival spike g v m -> m = 2 \/ m = 1.
  Proof. intros m v H. apply spike_val in H as ->. destruct (list_eq_dec _ _ _); auto. Qed.
  Lemma spike_at : forall v, ival spike g v 2 -> v = [1; 0; 0].
  Proof. intros v H. apply spike_val in H. destruct (list_eq_dec _ _ _); auto. lra. Qed.
  Lemma spike_off : forall v m, v <> [1; 0; 0] -> ival spike g v m -> m = 1.
  Proof. intros v m Hn H. apply spike_val in H as ->. destruct (list_eq_dec _ _ _); auto. congruence. Qed.
  Lemma spike_on : ival spike g [1; 0; 0] 2.
  Proof. apply spike_val. destruct (list_eq_dec _ _ _); congruence. Qed.

  (** the first grid keeps the spike *)
  Lemma spike_plane1 : forall v, length v = 3%nat -> gridplane trigR spike (stack2 [1; 0; 0] v) g = Ok (1, 0, 2).
  Proof.
    intros v Hv. destruct HG as (Hr & Ha & _).
    apply (gridplane_spec spike 3 (stack2 [1; 0; 0] v) g (-1) 1); auto; [apply stack2_matrix; auto|lra|lra|].
    exists 0%nat. split; [lia|]. assert (E0 : angle1 (ga_ndir g) 0 = 0) by (unfold angle1; cbn; unfold Rdiv; ring). split.
    { rewrite E0, cos_0, sin_0. f_equal; ring. }
    split.
    - unfold val. rewrite combine2_stack2 by auto. rewrite blend_10 by auto. apply spike_on.
    - intros i Hi. unfold val. cbn [fst snd].
      set (w := combine2 _ _ _). exists (if list_eq_dec Req_EM_T w [1; 0; 0] then 2 else 1). split; [apply spike_val; reflexivity|].
      split; [destruct (list_eq_dec _ _ _); lra|lia].
  Qed.

  Definition d2 (q : R) (k : nat) : R * R :=
    (1 * cos (angle2 (ga_ndir g) k) / norm2 q 1 (angle2 (ga_ndir g) k), 1 * sin (angle2 (ga_ndir g) k) / norm2 q 1 (angle2 (ga_ndir g) k)).
  Lemma plane2_iff : forall u v q a b m, length u = 3%nat -> length v = 3%nat ->
    gridplane_2 trigR spike (stack2 u v) q g2 = Ok (a, b, m) <-> first_best (ga_ndir g) (d2 q) (fun x y z => ival spike g (blend x y u v) z) a b m.
  Proof.
    intros u v q a b m Hu Hv. destruct (g2_kw g g2 HG) as (K1 & K2 & K3). pose proof HG as (_ & _ & E2).
    rewrite (gridplane_2_spec spike 3 (stack2 u v) q g2 (-1) 1); [|apply stack2_matrix; auto|rewrite E2; auto|rewrite E2; auto|lra|lra|rewrite E2; auto].
    rewrite K3. unfold first_best. split; intros (k & Hk & E1 & Ev & Hf); exists k; (split; [auto|]); (split; [auto|]); split.
    - apply (ival_g2 spike g g2 HG). rewrite <- combine2_stack2 by lia. exact Ev.
    - intros i Hi. destruct (Hf i Hi) as (o & Ho & Hl). exists o. split; auto. apply (ival_g2 spike g g2 HG). rewrite <- combine2_stack2 by lia. exact Ho.
    - unfold val. rewrite combine2_stack2 by lia. apply (ival_g2 spike g g2 HG). exact Ev.
    - intros i Hi. destruct (Hf i Hi) as (o & Ho & Hl). exists o. split; auto. unfold val. rewrite combine2_stack2 by lia. apply (ival_g2 spike g g2 HG). exact Ho.
  Qed.
  Lemma norm2_0 : forall t, norm2 0 1 t = 1.
  Proof. intros t. unfold norm2. replace (1 + 2 * (1 * cos t * (1 * sin t)) * 0) with 1 by ring. apply sqrt_1. Qed.
  Lemma d2_0 : forall k, d2 0 k = (cos (angle2 (ga_ndir g) k), sin (angle2 (ga_ndir g) k)).
  Proof. intros k. unfold d2. rewrite norm2_0. f_equal; field. Qed.
  Lemma angle2_0 : angle2 (ga_ndir g) 0 = - (PI / 2).
  Proof. unfold angle2. cbn. unfold Rdiv. rewrite !Rmult_0_l. lra. Qed.
  Lemma angle2_last : angle2 (ga_ndir g) (ga_ndir g - 1) = PI / 2.
  Proof. unfold angle2. assert (INR (ga_ndir g - 1) <> 0) by (apply not_0_INR; lia). field. auto. Qed.
  Lemma angle2_range : forall k, (k < ga_ndir g)%nat -> - (PI / 2) <= angle2 (ga_ndir g) k <= PI / 2.
  Proof.
    intros k Hk. unfold angle2. pose proof PI_RGT_0. set (d := INR (ga_ndir g - 1)). assert (Hd : 0 < d) by (apply lt_0_INR; lia).
    assert (Hk1 : INR k <= d) by (apply le_INR; lia). pose proof (pos_INR k).
    assert (E : INR k * PI / d * d = INR k * PI) by (field; lra). assert (0 <= INR k * PI / d) by (apply Rmult_le_pos; [nra|apply Rlt_le, Rinv_0_lt_compat; auto]).
    assert (INR k * PI / d <= PI) by nra. lra.
  Qed.
  Lemma sin_angle2 : forall k, (k < ga_ndir g)%nat -> sin (angle2 (ga_ndir g) k) <> 0.
  Proof.
    intros k Hk E. pose proof (angle2_range k Hk) as [A1 A2]. pose proof PI_RGT_0 as HP. set (t := angle2 (ga_ndir g) k) in *.
    assert (Et : t = 0).
    { destruct (Rtotal_order t 0) as [L|[L|L]]; auto; exfalso.
      - assert (0 < sin (- t)) by (apply sin_gt_0; lra). rewrite sin_neg in *. lra.
      - assert (0 < sin t) by (apply sin_gt_0; lra). lra. }
    unfold t, angle2 in Et. set (d := INR (ga_ndir g - 1)) in *. assert (Hd : 0 < d) by (apply lt_0_INR; lia).
    assert (E2 : INR k * PI / d = PI / 2) by lra. assert (E3 : INR k * PI / d * d = INR k * PI) by (field; lra). rewrite E2 in E3.
    assert (E4 : 2 * INR k = d) by (apply (Rmult_eq_reg_r PI); lra). unfold d in E4. replace (2 * INR k) with (INR (2 * k)) in E4 by (rewrite mult_INR; cbn; ring).
    apply INR_eq in E4. apply Nat.even_spec in Hev as [h Eh]. lia.
  Qed.

  (** a plane without the spike: the first direction is taken *)
  Lemma spike_plane2_off : forall u v, length u = 3%nat -> length v = 3%nat ->
    (forall k, (k < ga_ndir g)%nat -> blend (cos (angle2 (ga_ndir g) k)) (sin (angle2 (ga_ndir g) k)) u v <> [1; 0; 0]) ->
    gridplane_2 trigR spike (stack2 u v) 0 g2 = Ok (0, -1, 1).
  Proof.
    intros u v Hu Hv Hoff. apply plane2_iff; auto. exists 0%nat. split; [lia|]. split.
    { rewrite d2_0, angle2_0, cos_neg, sin_neg, cos_PI2, sin_PI2. reflexivity. }
    split.
    - apply spike_val. specialize (Hoff 0%nat ltac:(lia)). rewrite angle2_0, cos_neg, sin_neg, cos_PI2, sin_PI2 in Hoff.
      destruct (list_eq_dec _ _ _) as [E|]; auto. exfalso. apply Hoff. exact E.
    - intros i Hi. exists 1. split; [|split; [lra|lia]]. rewrite d2_0. cbn [fst snd]. apply spike_val. specialize (Hoff i Hi). destruct (list_eq_dec _ _ _); congruence.
  Qed.
  (** a plane whose last direction is the spike: the chosen direction gives it *)
  Lemma spike_plane2_on : forall u v q, length u = 3%nat -> length v = 3%nat -> v = [1; 0; 0] ->
    exists w0 w1, gridplane_2 trigR spike (stack2 u v) q g2 = Ok (w0, w1, 2) /\ blend w0 w1 u v = [1; 0; 0].
  Proof.
    intros u v q Hu Hv Ev.
    destruct (first_best_exists (ga_ndir g) (d2 q) (fun x y z => ival spike g (blend x y u v) z)) as (a & b & m & Hb).
    - lia.
    - intros k Hk. eexists. apply spike_val. reflexivity.
    - intros x y z w H1 H2. apply (ival_unique _ _ _ _ _ H1 H2).
    - pose proof (proj2 (plane2_iff u v q a b m Hu Hv) Hb) as Ep. destruct Hb as (k & Hk & E1 & Em & Hf).
      assert (m = 2).
      { destruct (spike_val2 _ _ Em) as [|E]; auto. exfalso. destruct (Hf (ga_ndir g - 1)%nat ltac:(lia)) as (o & Ho & Hl & _).
        unfold d2 in Ho. cbn [fst snd] in Ho. rewrite angle2_last in Ho. unfold norm2 in Ho. rewrite cos_PI2, sin_PI2 in Ho.
        replace (1 + 2 * (1 * 0 * (1 * 1)) * q) with 1 in Ho by ring. rewrite sqrt_1 in Ho. replace (1 * 0 / 1) with 0 in Ho by field. replace (1 * 1 / 1) with 1 in Ho by field.
        rewrite blend_01 in Ho by lia. rewrite Ev in Ho. rewrite (ival_unique _ _ _ _ _ Ho spike_on) in Hl. lra. }
      subst m. exists a, b. split; auto. apply spike_at. exact Em.
  Qed.

  Lemma Hn2 : forall k : nat, (k < ga_ndir g)%nat -> forall x y : R, blend (cos (angle2 (ga_ndir g) k)) (sin (angle2 (ga_ndir g) k)) [1;0;0] [0;1;0] <> [1; 0; 0].
  Proof. intros k Hk _ _ E. unfold blend, vadd, vscale in E. cbn in E. injection E as _ E2. apply (sin_angle2 k Hk). lra. Qed.

  Lemma veq3 : forall a b c x y z : R, a = x -> b = y -> c = z -> [a; b; c] = [x; y; z].
  Proof. intros; subst; auto. Qed.

  (** one pass starting from the spike, or from minus the third column *)
  Lemma spike_tail : forall a, a = [1; 0; 0] -> sweep2 trigR spike g2 I3 [1; 2]%nat [1; 0; 0] a = Ok ([0; 0; -1], [0; 0; -1]).
  Proof.
    intros a ->. cbn [sweep2]. change (getcol I3 1) with (Ok [0; 1; 0] : res (list R)). cbn [bind nth]. rnum.
    rewrite spike_plane2_off; auto; [|intros k Hk; apply (Hn2 k Hk 0 0)]. cbn [bind].
    change (getcol I3 2) with (Ok [0; 0; 1] : res (list R)). cbn [bind].
    assert (E1 : blend 0 (-1) [1; 0; 0] [0; 1; 0] = [0; -1; 0]) by (unfold blend, vadd, vscale; cbn; apply veq3; ring). rewrite E1.
    assert (E2 : upd 1 (fun a : R => a + -1) (map (fun a : R => a * 0) [1; 0; 0]) = [0; -1; 0]) by (unfold upd; cbn; apply veq3; ring). rewrite E2.
    cbn [nth]. rewrite spike_plane2_off; auto.
    - cbn [bind]. f_equal. f_equal; [unfold blend, vadd, vscale|unfold upd]; cbn; apply veq3; ring.
    - intros k Hk E. unfold blend, vadd, vscale in E. cbn in E. injection E as E _ _. lra.
  Qed.
  Lemma spike_pass1 : sweep2 trigR spike g2 I3 [0; 1; 2]%nat [1; 0; 0] [1; 0; 0] = Ok ([0; 0; -1], [0; 0; -1]).
  Proof.
    cbn [sweep2]. change (getcol I3 0) with (Ok [1; 0; 0] : res (list R)). cbn [bind nth]. rnum.
    destruct (spike_plane2_on [1; 0; 0] [1; 0; 0] 1 eq_refl eq_refl eq_refl) as (w0 & w1 & -> & Eb). cbn [bind]. rewrite Eb.
    apply spike_tail. unfold blend, vadd, vscale in Eb. cbn in Eb. injection Eb as Eb. unfold upd. cbn. apply veq3; lra.
  Qed.
  Lemma spike_pass2 : sweep2 trigR spike g2 I3 [0; 1; 2]%nat [0; 0; -1] [0; 0; -1] = Ok ([0; 0; -1], [0; 0; -1]).
  Proof.
    cbn [sweep2]. change (getcol I3 0) with (Ok [1; 0; 0] : res (list R)). cbn [bind nth]. rnum.
    destruct (spike_plane2_on [0; 0; -1] [1; 0; 0] 0 eq_refl eq_refl eq_refl) as (w0 & w1 & -> & Eb). cbn [bind]. rewrite Eb.
    apply spike_tail. unfold blend, vadd, vscale in Eb. cbn in Eb. injection Eb as Eb1 Eb2. unfold upd. cbn. apply veq3; lra.
  Qed.
  Lemma I3_times : forall a b c : R, matvec I3 [a; b; c] = [a; b; c].
  Proof. intros a b c. unfold matvec, I3, dot. cbn. apply veq3; ring. Qed.
  Lemma spike_obj : forall gg a b c, ga_square gg = false -> objective spike gg I3 [a; b; c] = Ok (if list_eq_dec Req_EM_T [a; b; c] [1; 0; 0] then 2 else 1).
  Proof.
    intros gg a b c Hs. unfold objective. change (npdot I3 [a; b; c]) with (Ok (matvec I3 [a; b; c]) : res (list R)). rewrite I3_times. cbn [bind].
    unfold spike, as_col. cbn [flat map concat app bind]. rewrite Hs. reflexivity.
  Qed.
  Lemma spike_first : first_sweep trigR spike g I3 3 = Ok ([1; 0; 0], [1; 0; 0]).
  Proof.
    unfold first_sweep. change (map (firstn 2) I3) with (stack2 [1; 0; 0] [0; 1; 0]). rewrite spike_plane1 by auto. cbn [bind].
    rewrite (project_combine2 3) by (apply stack2_matrix; auto). rewrite combine2_stack2, blend_10 by auto.
    cbn [Nat.sub seq sweep1]. change (getcol I3 2) with (Ok [0; 0; 1] : res (list R)). cbn [bind]. rewrite spike_plane1 by auto. cbn [bind].
    rewrite blend_10 by auto. f_equal. f_equal. unfold upd, vzeros. cbn. apply veq3; ring.
  Qed.
  Lemma spike_search : forall maxiter, (0 < maxiter)%Z -> grid_search trigR spike g g2 maxiter I3 3 = Ok ([0; 0; -1], 1).
  Proof.
    intros maxiter Hm. unfold grid_search. assert (Hmm : exists ms, mapM (fun k => bind (getcol I3 k) (fun c => spike (as_col c) (ga_kw g))) (seq 0 3) = Ok ms).
    { eexists. cbn [seq mapM]. unfold getcol, I3. cbn. reflexivity. }
    destruct Hmm as [ms ->]. cbn [bind]. rewrite spike_first. cbn [bind]. rewrite spike_obj by auto.
    destruct (list_eq_dec Req_EM_T [1; 0; 0] [1; 0; 0]) as [_|]; [|congruence]. cbn [bind].
    destruct (Z.eqb_spec maxiter 0); [lia|]. destruct (Z.ltb_spec maxiter 0); [lia|].
    replace (Z.to_nat maxiter) with (S (Z.to_nat maxiter - 1)) by lia. set (f := (Z.to_nat maxiter - 1)%nat). cbn [refine length seq].
    rnum. rewrite nnat_R. replace (INR 1000) with 1000 by (rewrite INR_IZR_INZ; reflexivity).
    assert (Hsq2 : ga_square g2 = false) by (destruct (g2_kw g g2 HG) as (_ & -> & _); auto).
    assert (L1 : Rltb (1 / 10000) (Rabs (2 - - (1000)) / Rabs (- (1000))) = true).
    { apply Rltb_true. rewrite (Rabs_right (2 - - (1000))) by lra. rewrite Rabs_Ropp, (Rabs_right 1000) by lra. lra. }
    rewrite L1, spike_pass1. cbn [bind length seq]. rewrite spike_obj by auto.
    destruct (list_eq_dec Req_EM_T [0; 0; -1] [1; 0; 0]) as [E|_]; [exfalso; injection E; lra|]. cbn [bind].
    assert (L2 : Rltb (1 / 10000) (Rabs (- (1000) - 1) / Rabs 1) = true).
    { apply Rltb_true. rewrite (Rabs_left (- (1000) - 1)) by lra. rewrite (Rabs_right 1) by lra. lra. }
    rewrite L2, spike_pass2. cbn [bind]. rewrite spike_obj by auto.
    destruct (list_eq_dec Req_EM_T [0; 0; -1] [1; 0; 0]) as [E|_]; [exfalso; injection E; lra|]. cbn [bind].
    destruct f as [|f]; cbn [refine]; [reflexivity|]. rnum.
    assert (L3 : Rltb (1 / 10000) (Rabs (1 - 1) / Rabs 1) = false).
    { apply Rltb_false. replace (1 - 1) with 0 by ring. rewrite Rabs_R0. unfold Rdiv. lra. }
    rewrite L3. reflexivity.
  Qed.
End Spike.

(** ** degenerate directions *)
Lemma degenerate : forall j, (0 < j)%nat -> norm2 1 1 (angle2 (4 * j + 1) j) = 0.
Proof.
  intros j Hj. assert (E : angle2 (4 * j + 1) j = - (PI / 4)).
  { unfold angle2. replace (4 * j + 1 - 1)%nat with (4 * j)%nat by lia. rewrite mult_INR. replace (INR 4) with 4 by (cbn; ring).
    assert (INR j <> 0) by (apply not_0_INR; lia). field. auto. }
  rewrite E. unfold norm2. rewrite cos_neg, sin_neg, cos_PI4, sin_PI4. replace (1 + _) with 0; [apply sqrt_0|].
  assert (H2 : sqrt 2 * sqrt 2 = 2) by (apply sqrt_sqrt; lra). assert (sqrt 2 <> 0) by (intros H0; rewrite H0 in H2; lra).
  assert (E2 : 1 / sqrt 2 * (1 / sqrt 2) = 1 / 2) by (rewrite <- H2 at 3; field; auto). nra.
Qed.

(** ** unit weights *)
Lemma unit_state_proj : forall Z p zopt afin, unit_state Z p zopt afin <-> unit_projection Z p zopt afin.
Proof.
  intros Z p zopt afin. unfold unit_state, unit_projection. rewrite sqlen_dot. replace (map (fun r => inner r afin) Z) with (matvec Z afin); [reflexivity|].
  unfold matvec. apply map_ext. intros r. rewrite inner_dot. reflexivity.
Qed.
Lemma C64_unit1_l : forall n hi (value : R -> R -> R -> Prop) a b m, first_best n (fun k => (hi * cos (angle1 n k), hi * sin (angle1 n k))) value a b m -> a * a + b * b = hi * hi.
Proof.
  intros n hi value a b m (k & _ & E & _). inversion E. pose proof (sin2_cos2 (angle1 n k)) as Hs. unfold Rsqr in Hs.
  replace (hi * cos (angle1 n k) * (hi * cos (angle1 n k)) + hi * sin (angle1 n k) * (hi * sin (angle1 n k))) with (hi * hi * (sin (angle1 n k) * sin (angle1 n k) + cos (angle1 n k) * cos (angle1 n k))) by ring.
  rewrite Hs. ring.
Qed.
Lemma C64_unit2_l : forall n q (value : R -> R -> R -> Prop) a b m, good_ndir n -> -1 <= q <= 1 ->
  first_best n (fun k => (1 * cos (angle2 n k) / norm2 q 1 (angle2 n k), 1 * sin (angle2 n k) / norm2 q 1 (angle2 n k))) value a b m -> a * a + b * b + 2 * (a * b) * q = 1.
Proof.
  intros n q value a b m Hg Hq (k & Hk & E & _). pose proof (not_degenerate n k q Hg Hk Hq) as Hd. inversion E. unfold norm2 in *.
  set (x := cos (angle2 n k)) in *. set (y := sin (angle2 n k)) in *. set (N := 1 + 2 * (1 * x * (1 * y)) * q) in *.
  assert (HN : sqrt N * sqrt N = N) by (apply sqrt_sqrt; lra). assert (Hz : sqrt N <> 0) by (intros H0'; rewrite H0' in HN; lra).
  pose proof (sin2_cos2 (angle2 n k)) as Hs. unfold Rsqr in Hs. fold x y in Hs.
  replace (1 * x / sqrt N * (1 * x / sqrt N) + 1 * y / sqrt N * (1 * y / sqrt N) + 2 * (1 * x / sqrt N * (1 * y / sqrt N)) * q)
    with ((y * y + x * x + 2 * (1 * x * (1 * y)) * q) / (sqrt N * sqrt N)) by (field; auto).
  rewrite HN, Hs. fold N. field. lra.
Qed.
