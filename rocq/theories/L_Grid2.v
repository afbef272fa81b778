(** The grid search of ppdire: unit weights, matching projections, objective. *)

From Coq Require Import Reals List Arith ZArith Bool Lia Lra Psatz.
Import ListNotations.
From Verif Require Import Num Err Vec VecR L_Mat L_Lin M_Utils M_Dicomo M_Ppdire S_Stats S_Regress L_Snipls S_Ppdire L_Grid.
Open Scope R_scope.

(** ** unit vectors *)
Definition ej (p j : nat) : list R := map (fun i => if (i =? j)%nat then 1 else 0) (seq 0 p).
Lemma ej_length : forall p j, length (ej p j) = p.
Proof. intros. unfold ej. rewrite map_length, seq_length. reflexivity. Qed.
Lemma nth_ej : forall p j i, (i < p)%nat -> nth i (ej p j) 0 = if (i =? j)%nat then 1 else 0.
Proof. intros p j i Hi. unfold ej. rewrite (nth_map_lt _ _ _ 0%nat) by (rewrite seq_length; auto). rewrite seq_nth by auto. reflexivity. Qed.
Lemma dot_ej : forall (v : list R) j, (j < length v)%nat -> dot v (ej (length v) j) = nth j v 0.
Proof.
  intros v j Hj. rewrite (dot_sumn v _ (length v)) by (rewrite ?ej_length; auto).
  rewrite (sumn_ext _ _ (fun i => if Nat.eqb i j then nth i v 0 else 0)).
  - apply (sumn_delta (length v) j (fun i => nth i v 0)); auto.
  - intros i Hi. rewrite nth_ej by auto. destruct (i =? j)%nat; ring.
Qed.
Lemma matvec_ej : forall n p (X : list (list R)) j, wf n p X -> (j < p)%nat -> matvec X (ej p j) = col j X.
Proof.
  intros n p X j [_ HF] Hj. unfold matvec, col. apply map_ext_in. intros r Hr. rewrite Forall_forall in HF. specialize (HF r Hr).
  rewrite <- HF. rewrite dot_ej by lia. reflexivity.
Qed.

Definition stepv (w0 w1 : R) (j : nat) (v : list R) : list R := vadd (vscale w0 v) (vscale w1 (ej (length v) j)).
Lemma stepv_length : forall w0 w1 j v, length (stepv w0 w1 j v) = length v.
Proof. intros. unfold stepv, vadd. rewrite map2_length, !vscale_length, ej_length. lia. Qed.
Lemma nth_stepv : forall w0 w1 j v i, (i < length v)%nat -> nth i (stepv w0 w1 j v) 0 = w0 * nth i v 0 + (if (i =? j)%nat then w1 else 0).
Proof.
  intros w0 w1 j v i Hi. unfold stepv. rewrite nth_vadd; rewrite ?vscale_length, ?ej_length; auto. rewrite !nth_vscale, nth_ej by auto.
  destruct (i =? j)%nat; ring.
Qed.
Lemma stepv_sq : forall w0 w1 j v, (j < length v)%nat ->
  dot (stepv w0 w1 j v) (stepv w0 w1 j v) = w0 * w0 * dot v v + 2 * w0 * w1 * nth j v 0 + w1 * w1.
Proof.
  intros w0 w1 j v Hj. set (u := stepv w0 w1 j v).
  assert (Hu : forall x, length x = length v -> dot u x = w0 * dot v x + w1 * nth j x 0).
  { intros x Hx. unfold u, stepv. rewrite dot_vadd_l by (rewrite !vscale_length, ej_length; reflexivity). rewrite !dot_vscale_l.
    rewrite (dot_comm (ej (length v) j)), <- Hx, dot_ej by lia. reflexivity. }
  rewrite (Hu u) by apply stepv_length. rewrite (dot_comm v u), (Hu v) by auto. unfold u. rewrite nth_stepv by auto. rewrite Nat.eqb_refl. ring.
Qed.
Lemma matvec_stepv : forall n p (X : list (list R)) w0 w1 j v, wf n p X -> (j < p)%nat -> length v = p ->
  matvec X (stepv w0 w1 j v) = blend w0 w1 (matvec X v) (col j X).
Proof.
  intros n p X w0 w1 j v HX Hj Hv. unfold stepv, blend. rewrite (matvec_vadd n p) by (auto; rewrite ?vscale_length, ?ej_length; auto).
  rewrite !matvec_vscale, Hv, (matvec_ej n p) by auto. reflexivity.
Qed.

(** ** index-wise updates *)
Lemma nth_mapi : forall (f : nat * R -> R) (v : list R) i, (i < length v)%nat ->
  nth i (map f (combine (seq 0 (length v)) v)) 0 = f (i, nth i v 0).
Proof.
  intros f v i Hi. assert (Hl : length (combine (seq 0 (length v)) v) = length v) by (rewrite combine_length, seq_length; lia).
  rewrite (nth_map_lt _ _ _ (0%nat, 0)) by lia. rewrite combine_nth by (rewrite seq_length; auto). rewrite seq_nth by auto. reflexivity.
Qed.
Lemma mapi_length : forall (f : nat * R -> R) (v : list R), length (map f (combine (seq 0 (length v)) v)) = length v.
Proof. intros. rewrite map_length, combine_length, seq_length. lia. Qed.
Lemma upd_length : forall j f (v : list R), length (upd j f v) = length v.
Proof. intros. apply mapi_length. Qed.
Lemma nth_upd : forall j f (v : list R) i, (i < length v)%nat -> nth i (upd j f v) 0 = if (i =? j)%nat then f (nth i v 0) else nth i v 0.
Proof. intros j f v i Hi. unfold upd. rewrite nth_mapi by auto. reflexivity. Qed.

Lemma upd_sweep1 : forall w0 w1 j (v : list R), (j < length v)%nat -> (forall i, (j <= i)%nat -> (i < length v)%nat -> nth i v 0 = 0) ->
  upd j (fun _ => w1) (map (fun ka => if (fst ka <=? j)%nat then snd ka * w0 else snd ka) (combine (seq 0 (length v)) v)) = stepv w0 w1 j v.
Proof.
  intros w0 w1 j v Hj Hz. apply (list_ext _ _ 0); [rewrite upd_length, mapi_length, stepv_length; reflexivity|].
  rewrite upd_length, mapi_length. intros i Hi. rewrite nth_upd by (rewrite mapi_length; auto). rewrite nth_stepv by auto.
  destruct (Nat.eqb_spec i j) as [->|Hn]; [rewrite Hz by auto; ring|]. rewrite nth_mapi by auto. cbn [fst snd].
  destruct (Nat.leb_spec i j); [ring|]. rewrite Hz by lia. ring.
Qed.
Lemma upd_sweep2 : forall w0 w1 j (v : list R), upd j (fun a => a + w1) (map (fun a => a * w0) v) = stepv w0 w1 j v.
Proof.
  intros w0 w1 j v. apply (list_ext _ _ 0); [rewrite upd_length, map_length, stepv_length; reflexivity|].
  rewrite upd_length, map_length. intros i Hi. rewrite nth_upd by (rewrite map_length; auto). rewrite nth_stepv by auto.
  rewrite (nth_map_lt _ _ _ 0) by auto. destruct (i =? j)%nat; ring.
Qed.

(** ** the plane spanned by two samples *)
Lemma stack2_matrix : forall n (u v : list R), length u = n -> length v = n -> is_matrix n 2 (stack2 u v).
Proof.
  intros n u v Hu Hv. split; [unfold stack2; rewrite map2_length; lia|]. apply Forall_forall. intros r Hr. unfold stack2 in Hr.
  revert v Hv Hr; clear; revert u n. intros u n v _ Hr. revert v Hr. induction u as [|a u IH]; intros [|b v] Hr; cbn in Hr; try tauto.
  destruct Hr as [<-|Hr]; auto. apply (IH v Hr).
Qed.
Lemma combine2_stack2 : forall (u v : list R) a b, length u = length v -> combine2 (stack2 u v) a b = blend a b u v.
Proof.
  intros u; induction u as [|x u IH]; intros [|y v] a b Hl; cbn in Hl; try lia; auto. cbn. f_equal. apply IH. lia.
Qed.
Lemma blend_length : forall a b (u v : list R), length u = length v -> length (blend a b u v) = length u.
Proof. intros. unfold blend, vadd. rewrite map2_length, !vscale_length. lia. Qed.
Lemma blend_10 : forall (u v : list R), length u = length v -> blend 1 0 u v = u.
Proof.
  intros u v Hl. apply (list_ext _ _ 0); [apply blend_length; auto|]. intros i Hi. rewrite blend_length in Hi by auto. unfold blend.
  rewrite nth_vadd by (rewrite !vscale_length; auto). rewrite !nth_vscale. ring.
Qed.
Lemma blend_01 : forall (u v : list R), length u = length v -> blend 0 1 u v = v.
Proof.
  intros u v Hl. apply (list_ext _ _ 0); [rewrite blend_length; auto|]. intros i Hi. rewrite blend_length in Hi by auto. unfold blend.
  rewrite nth_vadd by (rewrite !vscale_length; auto). rewrite !nth_vscale. ring.
Qed.

Lemma unit_angle : forall t, cos t * cos t + sin t * sin t = 1.
Proof. intros t. pose proof (sin2_cos2 t) as E. unfold Rsqr in E. lra. Qed.

(** ** the second grid never degenerates unless 4 divides ndir - 1 *)
Lemma not_degenerate : forall ndir k q, good_ndir ndir -> (k < ndir)%nat -> -1 <= q <= 1 ->
  0 < 1 + 2 * ((1 * cos (angle2 ndir k)) * (1 * sin (angle2 ndir k))) * q.
Proof.
  intros ndir k q Hg Hk Hq. set (t := angle2 ndir k).
  replace (1 + 2 * (1 * cos t * (1 * sin t)) * q) with (1 + sin (2 * t) * q) by (rewrite sin_2a; ring).
  destruct (Rlt_le_dec 0 (1 + sin (2 * t) * q)) as [|Hle]; auto. exfalso.
  pose proof (SIN_bound (2 * t)) as Hs.
  assert (Hc : cos (2 * t) = 0).
  { pose proof (unit_angle (2 * t)) as Hu. assert (Hss : 1 <= sin (2 * t) * sin (2 * t)).
    { generalize dependent (sin (2 * t)). intros s0 Hle Hs Hu. assert (q * q <= 1) by nra. assert (1 <= (s0 * q) * (s0 * q)) by nra. pose proof (Rle_0_sqr s0) as Hp. unfold Rsqr in Hp. nra. }
    assert (cos (2 * t) * cos (2 * t) <= 0) by lra.
    destruct (Req_dec (cos (2 * t)) 0) as [|Hn]; auto. assert (0 < cos (2 * t) * cos (2 * t)) by nra. lra. }
  destruct (Nat.eq_dec ndir 1) as [E1|N1].
  - assert (k = 0)%nat by lia. subst k. unfold t, angle2 in Hs, Hle. rewrite E1 in *. cbn [INR Nat.sub] in *.
    replace (2 * (- PI / 2 + 0 * PI / 0)) with (- PI) in * by (unfold Rdiv; rewrite !Rmult_0_l; lra). rewrite sin_neg, sin_PI in *. lra.
  - destruct Hg as [|Hg]; [lia|]. set (d := INR (ndir - 1)). assert (Hd : 0 < d) by (apply lt_0_INR; lia).
    set (x := 2 * (INR k * PI / d)). assert (Ex : 2 * t = x - PI) by (unfold t, angle2, x, d; field; apply Rgt_not_eq, Hd).
    rewrite Ex in Hc. replace (x - PI) with (x - PI) in Hc by ring. rewrite cos_minus, cos_PI, sin_PI in Hc. assert (Hcx : cos x = 0) by lra.
    pose proof PI_RGT_0 as HP. pose proof (pos_INR k) as Hk0. assert (Hkd : INR k <= d) by (apply le_INR; lia).
    assert (Hx0 : 0 <= x). { unfold x. apply Rmult_le_pos; [lra|]. apply Rmult_le_pos; [nra|]. apply Rlt_le, Rinv_0_lt_compat; auto. }
    assert (Hxd : x * d = 2 * INR k * PI) by (unfold x; field; lra).
    assert (Hx1 : x <= 2 * PI). { apply (Rmult_le_reg_r d); [auto|]. rewrite Hxd. nra. }
    assert (H4 : INR (4 * k) = d \/ INR (4 * k) = 3 * d).
    { rewrite mult_INR. replace (INR 4) with 4 by (cbn; ring).
      destruct (cos_eq_0_2PI_0 x Hx0 Hx1 Hcx) as [E|E]; rewrite E in Hxd; [left|right]; apply (Rmult_eq_reg_r PI); lra. }
    apply Hg. destruct H4 as [E|E].
    + unfold d in E. apply INR_eq in E. rewrite <- E, Nat.mul_comm. apply Nat.mod_mul. lia.
    + unfold d in E. replace (3 * INR (ndir - 1)) with (INR (3 * (ndir - 1))) in E by (rewrite mult_INR; cbn; ring). apply INR_eq in E.
      assert (Hdv : Nat.divide 4 (ndir - 1)) by (apply (Nat.gauss 4 3); [exists k; lia|reflexivity]). apply Nat.mod_divide; [lia|exact Hdv].
Qed.

Lemma nth_unit_bound : forall v j, dot v v = 1 -> (j < length v)%nat -> -1 <= nth j v 0 <= 1.
Proof.
  intros v j E Hj. assert (H : nth j v 0 * nth j v 0 <= dot v v).
  { rewrite (dot_sumn v v (length v)) by auto. unfold sumn. apply (vsum_in_le (map (fun i => nth i v 0 * nth i v 0) (seq 0 (length v)))).
    - apply Forall_forall. intros x Hx. apply in_map_iff in Hx as (i & <- & _). apply Rle_0_sqr.
    - apply in_map_iff. exists j. split; auto. apply in_seq. lia. }
  nra.
Qed.

(** ** the sweeps *)
Definition unit_state (Z : list (list R)) (p : nat) (zopt afin : list R) : Prop :=
  length afin = p /\ dot afin afin = 1 /\ zopt = matvec Z afin.

Lemma getcol_ok : forall n p (Z : list (list R)) j, wf n p Z -> (0 < n)%nat -> (j < p)%nat -> getcol Z j = Ok (col j Z).
Proof. intros n p Z j HZ Hn Hj. unfold getcol. rewrite (wf_ncols n p) by auto. apply Nat.ltb_lt in Hj. rewrite Hj. reflexivity. Qed.

Definition ival most (g : gargs R) (v : list R) (m : R) : Prop := sample_value most (ga_kw g) (ga_square g) v m.
Lemma ival_unique : forall most g v a b, ival most g v a -> ival most g v b -> a = b.
Proof. intros most g v a b (u1 & F1 & ->) (u2 & F2 & ->). rewrite F1 in F2. apply Ok_inj in F2 as ->. reflexivity. Qed.

Section Sweeps.
  Variables (most : arr R -> dkw R -> res R) (g g2 : gargs R) (n p : nat) (Z : list (list R)).
  Hypothesis HG : grid_args g g2.
  Hypothesis HZ : wf n p Z.
  Hypothesis Hn : (0 < n)%nat.

  Lemma len_col : forall j, length (col j Z) = n.
  Proof. intros j. unfold col. rewrite map_length. apply (wf_length _ _ _ HZ). Qed.
  Lemma len_proj : forall a, length (matvec Z a) = n.
  Proof. intros a. rewrite matvec_length. apply (wf_length _ _ _ HZ). Qed.

  Lemma plane1 : forall u v w0 w1 m, length u = n -> length v = n -> gridplane trigR most (stack2 u v) g = Ok (w0, w1, m) ->
    w0 * w0 + w1 * w1 = 1 /\ ival most g (blend w0 w1 u v) m /\
    (exists o, ival most g u o /\ o <= m) /\
    (Nat.even (ga_ndir g) = true -> exists o, ival most g v o /\ o <= m).
  Proof.
    intros u v w0 w1 m Hu Hv E. destruct HG as (Hr & Ha & _).
    apply (gridplane_spec most n (stack2 u v) g (-1) 1) in E; auto; [|apply stack2_matrix; auto|lra|lra].
    destruct E as (k & Hk & Ed & Ev & Hf). inversion Ed; subst w0 w1. unfold val in *. rewrite combine2_stack2 in Ev by lia.
    split; [|split; [exact Ev|split]].
    - rewrite !Rmult_1_l. apply unit_angle.
    - destruct (Hf 0%nat) as (o & Ho & Hle & _); [lia|]. exists o. split; auto. cbn [fst snd] in Ho.
      replace (angle1 (ga_ndir g) 0) with 0 in Ho by (unfold angle1; cbn; unfold Rdiv; ring). rewrite cos_0, sin_0 in Ho.
      rewrite combine2_stack2 in Ho by lia. replace (1 * 1) with 1 in Ho by ring. replace (1 * 0) with 0 in Ho by ring. rewrite blend_10 in Ho by lia. exact Ho.
    - intros Hev. apply Nat.even_spec in Hev as [h Eh]. destruct (Hf h) as (o & Ho & Hle & _); [lia|]. exists o. split; auto. cbn [fst snd] in Ho.
      replace (angle1 (ga_ndir g) h) with (PI / 2) in Ho.
      2: { unfold angle1. rewrite Eh. rewrite mult_INR. cbn [INR]. field. apply not_0_INR. lia. }
      rewrite cos_PI2, sin_PI2 in Ho. rewrite combine2_stack2 in Ho by lia. replace (1 * 1) with 1 in Ho by ring. replace (1 * 0) with 0 in Ho by ring.
      rewrite blend_01 in Ho by lia. exact Ho.
  Qed.

  Lemma unit_step : forall w0 w1 j zopt afin, (j < p)%nat -> unit_state Z p zopt afin ->
    w0 * w0 + 2 * w0 * w1 * nth j afin 0 + w1 * w1 = 1 -> unit_state Z p (blend w0 w1 zopt (col j Z)) (stepv w0 w1 j afin).
  Proof.
    intros w0 w1 j zopt afin Hj (Hl & H1 & ->) E. split; [rewrite stepv_length; auto|]. split.
    - rewrite stepv_sq by lia. rewrite H1. lra.
    - rewrite (matvec_stepv n p) by auto. reflexivity.
  Qed.
  Lemma unit_len : forall zopt afin, unit_state Z p zopt afin -> length zopt = n.
  Proof. intros zopt afin (_ & _ & ->). apply len_proj. Qed.

  Lemma sweep1_inv : forall k j zopt afin zopt' afin', (j + k = p)%nat -> unit_state Z p zopt afin ->
    (forall i, (j <= i)%nat -> (i < p)%nat -> nth i afin 0 = 0) ->
    sweep1 trigR most g Z (seq j k) zopt afin = Ok (zopt', afin') ->
    unit_state Z p zopt' afin' /\
    (forall o, ival most g zopt o -> exists o', ival most g zopt' o' /\ o <= o' /\
       (Nat.even (ga_ndir g) = true -> forall i, (j <= i)%nat -> (i < p)%nat -> exists oi, ival most g (col i Z) oi /\ oi <= o')).
  Proof.
    intros k. induction k as [|k IH]; intros j zopt afin zopt' afin' Hjk Hu Hz E.
    - cbn in E. inversion E; subst. split; auto. intros o Ho. exists o. split; auto. split; [lra|]. intros _ i Hi1 Hi2. lia.
    - cbn [seq sweep1] in E. rewrite (getcol_ok n p) in E by (auto; lia). cbn [bind] in E.
      destruct (gridplane trigR most (stack2 zopt (col j Z)) g) as [[[w0 w1] m]|e] eqn:Ep; cbn [bind] in E; [|discriminate].
      apply plane1 in Ep as (Hw & Hv & Hold & Hcol); [|apply (unit_len _ _ Hu)|apply len_col].
      assert (Hz' : nth j afin 0 = 0) by (apply Hz; lia). assert (Hla : length afin = p) by apply Hu.
      pose proof (upd_sweep1 w0 w1 j afin) as Eu. rnum. rewrite Eu in E; [|lia|intros i H1 H2; apply Hz; lia]. clear Eu.
      assert (Hu' : unit_state Z p (blend w0 w1 zopt (col j Z)) (stepv w0 w1 j afin)) by (apply unit_step; auto; [lia|rewrite Hz'; lra]).
      assert (Hz2 : forall i, (S j <= i)%nat -> (i < p)%nat -> nth i (stepv w0 w1 j afin) 0 = 0).
      { intros i H1 H2. rewrite nth_stepv by lia. rewrite Hz by lia. destruct (Nat.eqb_spec i j); [lia|ring]. }
      destruct (IH (S j) _ _ zopt' afin' ltac:(lia) Hu' Hz2 E) as [R1 R2]. split; auto.
      intros o Ho. destruct (R2 m Hv) as (o' & Ho' & Hmo & Hev). destruct Hold as (ou & Hou & Hle). rewrite (ival_unique _ _ _ _ _ Hou Ho) in Hle.
      exists o'. split; auto. split; [lra|]. intros He i H1 H2. destruct (Nat.eq_dec i j) as [->|Hij].
      + destruct (Hcol He) as (oi & Hoi & Hlei). exists oi. split; auto. lra.
      + apply Hev; auto. lia.
  Qed.

  Lemma cols2 : (2 <= p)%nat -> map (firstn 2) Z = stack2 (col 0 Z) (col 1 Z).
  Proof.
    intros Hp. destruct HZ as [_ HF]. clear HZ Hn. induction Z as [|r Z' IH]; auto. inversion HF as [|? ? Hr HF']; subst. cbn [map col]. rewrite IH by auto.
    destruct r as [|x [|y r]]; cbn in Hp; try lia. reflexivity.
  Qed.

  Lemma first_sweep_inv : forall zopt afin, (2 <= p)%nat -> first_sweep trigR most g Z p = Ok (zopt, afin) ->
    unit_state Z p zopt afin /\ exists o, ival most g zopt o /\
      (exists o0, ival most g (col 0 Z) o0 /\ o0 <= o) /\
      (Nat.even (ga_ndir g) = true -> forall i, (i < p)%nat -> exists oi, ival most g (col i Z) oi /\ oi <= o).
  Proof.
    intros zopt afin Hp E. unfold first_sweep in E. rewrite cols2 in E by auto.
    destruct (gridplane trigR most (stack2 (col 0 Z) (col 1 Z)) g) as [[[w0 w1] m]|e] eqn:Ep; cbn [bind] in E; [|discriminate].
    apply plane1 in Ep as (Hw & Hv & Hold & Hcol); [|apply len_col|apply len_col].
    rewrite (project_combine2 n) in E by (apply stack2_matrix; apply len_col). rewrite combine2_stack2 in E by (rewrite !len_col; auto).
    assert (Ea : w0 :: w1 :: vzeros (p - 2) = stepv w0 w1 1 (ej p 0)).
    { apply (list_ext _ _ 0); [rewrite stepv_length, ej_length; unfold vzeros; cbn [length]; rewrite repeat_length; lia|].
      cbn [length]. unfold vzeros at 1. rewrite repeat_length. intros i Hi. rewrite nth_stepv by (rewrite ej_length; lia). rewrite nth_ej by lia.
      destruct i as [|[|i]]; cbn [nth Nat.eqb]; [ring|ring|]. rnum. unfold vzeros. rewrite nth_repeat. rnum. ring. }
    rewrite Ea in E.
    assert (H1 : dot (ej p 0) (ej p 0) = 1).
    { rewrite <- (ej_length p 0) at 2. rewrite dot_ej by (rewrite ej_length; lia). rewrite nth_ej by lia. reflexivity. }
    assert (Hu0 : unit_state Z p (col 0 Z) (ej p 0)) by (split; [apply ej_length|split; [exact H1|rewrite (matvec_ej n p) by (auto; lia); reflexivity]]).
    assert (Hq : nth 1 (ej p 0) 0 = 0) by (rewrite nth_ej by lia; reflexivity).
    assert (Hu : unit_state Z p (blend w0 w1 (col 0 Z) (col 1 Z)) (stepv w0 w1 1 (ej p 0))) by (apply unit_step; [lia|auto|rewrite Hq; lra]).
    destruct (sweep1_inv (p - 2) 2 _ _ zopt afin ltac:(lia) Hu) as [R1 R2]; auto.
    { intros i Hi1 Hi2. rewrite nth_stepv by (rewrite ej_length; lia). rewrite nth_ej by lia. destruct i as [|[|i]]; try lia. cbn [Nat.eqb]. ring. }
    split; auto. destruct (R2 m Hv) as (o & Ho & Hmo & Hev). exists o. split; auto. destruct Hold as (o0 & Ho0 & Hl0). split; [exists o0; split; auto; lra|].
    intros He i Hi. destruct i as [|[|i]].
    - exists o0. split; auto. lra.
    - destruct (Hcol He) as (o1 & Ho1 & Hl1). exists o1. split; auto. lra.
    - apply Hev; auto. lia.
  Qed.

  Lemma g2_kw : ga_kw g2 = ga_kw g /\ ga_square g2 = ga_square g /\ ga_ndir g2 = ga_ndir g.
  Proof. destruct HG as (_ & _ & ->). auto. Qed.
  Lemma ival_g2 : forall v m, ival most g2 v m <-> ival most g v m.
  Proof. intros v m. unfold ival. destruct g2_kw as (-> & -> & _). tauto. Qed.

  Lemma plane2 : forall u v q w0 w1 m, length u = n -> length v = n -> good_ndir (ga_ndir g) -> -1 <= q <= 1 ->
    gridplane_2 trigR most (stack2 u v) q g2 = Ok (w0, w1, m) ->
    w0 * w0 + 2 * w0 * w1 * q + w1 * w1 = 1 /\ ival most g (blend w0 w1 u v) m /\
    ((3 <= ga_ndir g)%nat -> Nat.odd (ga_ndir g) = true -> exists o, ival most g u o /\ o <= m).
  Proof.
    intros u v q w0 w1 m Hu Hv Hgd Hq E. destruct g2_kw as (Hkw & Hsq & Hnd). destruct HG as (_ & _ & E2).
    apply (gridplane_2_spec most n (stack2 u v) q g2 (-1) 1) in E; [|apply stack2_matrix; auto|rewrite E2; auto|rewrite E2; auto|lra|lra|rewrite E2; auto].
    rewrite Hnd in E. destruct E as (k & Hk & Ed & Ev & Hf). inversion Ed; subst w0 w1. clear Ed.
    assert (Ev' : ival most g2 (blend (1 * cos (angle2 (ga_ndir g) k) / norm2 q 1 (angle2 (ga_ndir g) k)) (1 * sin (angle2 (ga_ndir g) k) / norm2 q 1 (angle2 (ga_ndir g) k)) u v) m).
    { rewrite <- combine2_stack2 by lia. exact Ev. }
    split; [|split; [apply ival_g2, Ev'|]].
    - pose proof (not_degenerate (ga_ndir g) k q Hgd Hk Hq) as Hpos. unfold norm2. set (c := cos (angle2 (ga_ndir g) k)) in *. set (s := sin (angle2 (ga_ndir g) k)) in *.
      assert (Hcs : c * c + s * s = 1) by apply unit_angle. set (D := 1 + 2 * (1 * c * (1 * s)) * q) in *.
      assert (Hs : sqrt D * sqrt D = D) by (apply sqrt_sqrt; lra). assert (Hs0 : sqrt D <> 0) by (apply Rgt_not_eq, sqrt_lt_R0; auto).
      replace (1 * c / sqrt D * (1 * c / sqrt D) + 2 * (1 * c / sqrt D) * (1 * s / sqrt D) * q + 1 * s / sqrt D * (1 * s / sqrt D))
        with ((c * c + s * s + 2 * (1 * c * (1 * s)) * q) / (sqrt D * sqrt D)) by (field; auto).
      rewrite Hs, Hcs. fold D. field. lra.
    - intros H3 Hodd. apply Nat.odd_spec in Hodd as [h Eh]. destruct (Hf h) as (o & Ho & Hle & _); [lia|]. exists o. split; auto. cbn [fst snd] in Ho.
      replace (angle2 (ga_ndir g) h) with 0 in Ho.
      2: { unfold angle2. rewrite Eh. replace (2 * h + 1 - 1)%nat with (2 * h)%nat by lia. rewrite mult_INR. cbn [INR]. field. apply not_0_INR. lia. }
      unfold norm2 in Ho. rewrite cos_0, sin_0 in Ho. replace (1 + 2 * (1 * 1 * (1 * 0)) * q) with 1 in Ho by ring. rewrite sqrt_1 in Ho.
      unfold val in Ho. rewrite combine2_stack2 in Ho by lia. replace (1 * 1 / 1) with 1 in Ho by field. replace (1 * 0 / 1) with 0 in Ho by field.
      rewrite blend_10 in Ho by lia. apply ival_g2, Ho.
  Qed.

  (** any sequence of columns, in any order *)
  Lemma sweep2_inv : forall js zopt afin zopt' afin', good_ndir (ga_ndir g) -> Forall (fun j => (j < p)%nat) js -> unit_state Z p zopt afin ->
    sweep2 trigR most g2 Z js zopt afin = Ok (zopt', afin') ->
    unit_state Z p zopt' afin' /\
    ((js <> [] -> exists o', ival most g zopt' o') /\
     ((3 <= ga_ndir g)%nat -> Nat.odd (ga_ndir g) = true -> forall o, ival most g zopt o -> exists o', ival most g zopt' o' /\ o <= o')).
  Proof.
    intros js. induction js as [|j js IH]; intros zopt afin zopt' afin' Hgd HF Hu E.
    - cbn in E. inversion E; subst. split; auto. split; [congruence|]. intros _ _ o Ho. exists o. split; auto. lra.
    - inversion HF as [|? ? Hj HF']; subst. cbn [sweep2] in E. rewrite (getcol_ok n p) in E by auto. cbn [bind] in E.
      destruct (gridplane_2 trigR most (stack2 zopt (col j Z)) (nth j afin n0) g2) as [[[w0 w1] m]|e] eqn:Ep; cbn [bind] in E; [|discriminate].
      assert (Hq : -1 <= nth j afin 0 <= 1) by (apply nth_unit_bound; [apply Hu|destruct Hu as [-> _]; auto]).
      apply plane2 in Ep as (Hw & Hv & Hold); [|apply (unit_len _ _ Hu)|apply len_col|auto|exact Hq].
      pose proof (upd_sweep2 w0 w1 j afin) as Eu. rnum. rewrite Eu in E. clear Eu.
      assert (Hu' : unit_state Z p (blend w0 w1 zopt (col j Z)) (stepv w0 w1 j afin)) by (apply unit_step; auto).
      destruct (IH _ _ zopt' afin' Hgd HF' Hu' E) as [R1 [R2 R3]]. split; auto. split.
      + intros _. destruct js as [|j' js']; [|apply R2; discriminate]. cbn in E. inversion E; subst. exists m. exact Hv.
      + intros H3 Ho o Hoo. destruct (R3 H3 Ho m Hv) as (o' & Ho' & Hle). destruct (Hold H3 Ho) as (o1 & Ho1 & Hle1).
        rewrite (ival_unique _ _ _ _ _ Ho1 Hoo) in Hle1. exists o'. split; auto. lra.
  Qed.

  Definition oval (w : list R) (o : R) : Prop := exists u, most (A2 (map (fun a => [a]) (matvec Z w))) (ga_kw g) = Ok u /\ o = if ga_square g then u * u else u.
  Lemma objective_spec : forall gg w o, ga_kw gg = ga_kw g -> ga_square gg = ga_square g -> length w = p ->
    objective most gg Z w = Ok o <-> oval w o.
  Proof.
    intros gg w o Hk Hs Hw. unfold objective, npdot, oval, as_col. rewrite (wf_ncols n p) by auto. rewrite Hw, Nat.eqb_refl. cbn [bind]. rewrite Hk, Hs.
    destruct (most _ _) as [u|e]; cbn [bind].
    - rewrite maybe_sq_R. split; [intros E; apply Ok_inj in E as <-; exists u; auto|]. intros (u' & E & ->). apply Ok_inj in E as <-. reflexivity.
    - split; [discriminate|]. intros (u' & E & _). discriminate.
  Qed.

  Lemma refine_inv : forall fuel zopt afin objfold objf zopt' afin' o, good_ndir (ga_ndir g) -> unit_state Z p zopt afin ->
    refine trigR most fuel g2 Z zopt afin objfold objf = Ok (zopt', afin', o) ->
    unit_state Z p zopt' afin' /\
    (oval afin' o \/ (zopt' = zopt /\ afin' = afin /\ o = objf)) /\
    ((3 <= ga_ndir g)%nat -> Nat.odd (ga_ndir g) = true -> forall o1, ival most g zopt o1 -> exists o', ival most g zopt' o' /\ o1 <= o').
  Proof.
    induction fuel as [|fuel IH]; intros zopt afin objfold objf zopt' afin' o Hgd Hu E.
    - cbn in E. inversion E; subst. split; auto. split; auto. intros _ _ o1 H1. exists o1. split; auto. lra.
    - cbn [refine] in E. destruct (nltb _ _).
      + destruct (sweep2 trigR most g2 Z (seq 0 (length afin)) zopt afin) as [[z1 a1]|e] eqn:Es; cbn [bind] in E; [|discriminate].
        assert (HF : Forall (fun j => (j < p)%nat) (seq 0 (length afin))).
        { apply Forall_forall. intros j Hj. apply in_seq in Hj. destruct Hu as (Hl & _). lia. }
        apply sweep2_inv in Es as (R1 & R2 & R3); auto.
        destruct (objective most g2 Z a1) as [ob|e] eqn:Eo; cbn [bind] in E; [|discriminate].
        assert (Hob : oval a1 ob). { apply (objective_spec g2); auto; try apply g2_kw. apply R1. }
        apply IH in E as (S1 & S2 & S3); auto. split; auto. split.
        * left. destruct S2 as [S2|(-> & -> & ->)]; auto.
        * intros H3 Ho o1 H1. destruct (R3 H3 Ho o1 H1) as (o2 & H2 & Hle). destruct (S3 H3 Ho o2 H2) as (o3 & H4 & Hle2). exists o3. split; auto. lra.
      + inversion E; subst. split; auto. split; auto. intros _ _ o1 H1. exists o1. split; auto. lra.
  Qed.

  Lemma grid_search_inv : forall maxiter w o, (3 <= p)%nat -> good_ndir (ga_ndir g) -> grid_search trigR most g g2 maxiter Z p = Ok (w, o) ->
    (0 < maxiter)%Z /\
    length w = p /\ dot w w = 1 /\
    exists zopt1 w1 o1, first_sweep trigR most g Z p = Ok (zopt1, w1) /\ oval w1 o1 /\
    (oval w o \/ (w = w1 /\ o = -1000 /\ Rabs (o1 + 1000) <= 1 / 10)) /\
    ((3 <= ga_ndir g)%nat -> Nat.odd (ga_ndir g) = true -> exists oa ob, ival most g (matvec Z w1) oa /\ ival most g (matvec Z w) ob /\ oa <= ob).
  Proof.
    intros maxiter w o Hp Hgd E. unfold grid_search in E.
    destruct (mapM _ (seq 0 p)) as [ms|e]; cbn [bind] in E; [|discriminate].
    destruct (first_sweep trigR most g Z p) as [[z1 a1]|e] eqn:E1; cbn [bind] in E; [|discriminate].
    destruct (first_sweep_inv z1 a1 ltac:(lia) E1) as (Hu1 & oz & Hoz & _).
    destruct (objective most g Z a1) as [ob|e] eqn:Eo; cbn [bind] in E; [|discriminate].
    destruct (Z.eqb_spec maxiter 0); [discriminate|]. destruct (Z.ltb_spec maxiter 0); [discriminate|].
    destruct (refine _ _ _ _ _ _ _ _ _) as [[[z2 a2] o2]|e] eqn:Er; cbn [bind] in E; [|discriminate]. inversion E; subst a2 o2; clear E.
    assert (Hob : oval a1 ob) by (apply (objective_spec g); auto; apply Hu1).
    pose proof Er as Er0. apply refine_inv in Er as (Hu2 & R2 & R3); auto.
    split; [lia|]. split; [apply Hu2|]. split; [apply Hu2|]. exists z1, a1, ob. split; auto. split; auto. split.
    - destruct R2 as [R2|(-> & -> & Ho)]; [left; auto|]. cbn [refine] in Er0. destruct (nltb _ _) eqn:El.
      + (* one pass at least: the objective is the one of the weights *)
        destruct (sweep2 _ _ _ _ _ _ _) as [[z3 a3]|e] eqn:Es; cbn [bind] in Er0; [|discriminate].
        destruct (objective most g2 Z a3) as [o3|e] eqn:Eo3; cbn [bind] in Er0; [|discriminate].
        assert (HF : Forall (fun j => (j < p)%nat) (seq 0 (length a1))).
        { apply Forall_forall. intros j Hj. apply in_seq in Hj. destruct Hu1 as (Hl & _). lia. }
        apply sweep2_inv in Es as (Q1 & _); auto.
        assert (H3 : oval a3 o3) by (apply (objective_spec g2); auto; [apply g2_kw|apply g2_kw|apply Q1]).
        apply refine_inv in Er0 as (_ & T2 & _); auto. left. destruct T2 as [T2|(-> & -> & ->)]; auto.
      + right. rnum. rewrite nnat_R in *. apply Rltb_false in El. replace (INR 1000) with 1000 in * by (rewrite INR_IZR_INZ; reflexivity).
        split; auto. split; [lra|]. replace (ob - - (1000)) with (ob + 1000) in El by ring. rewrite Rabs_Ropp, (Rabs_right 1000) in El by lra. lra.
    - intros H3 Ho. destruct Hu1 as (_ & _ & Ez1). destruct Hu2 as (_ & _ & Ez2). destruct (R3 H3 Ho oz Hoz) as (o' & Ho' & Hle).
      exists oz, o'. rewrite <- Ez1, <- Ez2. auto.
  Qed.
End Sweeps.
