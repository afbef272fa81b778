(** The decomposition of a matrix by successive deflation: cells, least squares,
    exactness with as many components as columns *)
From Coq Require Import Reals List Lra Lia Arith Bool.
Import ListNotations. Import List.
From Verif Require Import Num Err Vec VecR L_Mat L_Lin L_Deflate L_Snipls2.
Open Scope R_scope.

(** ** m homogeneous equations in m + 1 unknowns *)
Definition skip (j0 j : nat) : nat := if (j <? j0)%nat then j else S j.
Lemma sumn_skip : forall N j0 f, (j0 <= N)%nat -> sumn (S N) f = f j0 + sumn N (fun j => f (skip j0 j)).
Proof.
  induction N as [|N IH]; intros j0 f Hj.
  - replace j0 with 0%nat by lia. cbn. ring.
  - destruct (Nat.eq_dec j0 (S N)) as [->|Hne].
    + rewrite sumn_S, Rplus_comm. f_equal. apply sumn_ext. intros j Hj'. unfold skip.
      destruct (Nat.ltb_spec j (S N)); [reflexivity|lia].
    + rewrite sumn_S, (IH j0), (sumn_S N) by lia.
      replace (skip j0 N) with (S N) by (unfold skip; destruct (Nat.ltb_spec N j0); lia). ring.
Qed.
Definition unskip (j0 j : nat) : nat := if (j <? j0)%nat then j else pred j.
Lemma unskip_skip : forall j0 j, unskip j0 (skip j0 j) = j.
Proof. intros j0 j. unfold unskip, skip. destruct (Nat.ltb_spec j j0); [destruct (Nat.ltb_spec j j0); lia|destruct (Nat.ltb_spec (S j) j0); cbn; lia]. Qed.
Lemma skip_ne : forall j0 j, skip j0 j <> j0.
Proof. intros j0 j. unfold skip. destruct (Nat.ltb_spec j j0); lia. Qed.

Lemma kernel : forall m (a : nat -> nat -> R), exists z, (exists j, (j <= m)%nat /\ z j <> 0) /\ forall i, (i < m)%nat -> sumn (S m) (fun j => a i j * z j) = 0.
Proof.
  induction m as [|m IH]; intros a.
  - exists (fun _ => 1). split; [exists 0%nat; split; [lia|lra]|intros; lia].
  - assert (D : (exists j0, (j0 <= S m)%nat /\ a m j0 <> 0) \/ (forall j, (j <= S m)%nat -> a m j = 0)).
    { clear IH. generalize (S m) as N. intros N. induction N as [|N IHN].
      - destruct (Req_dec (a m 0%nat) 0); [right; intros j Hj; replace j with 0%nat by lia; auto|left; exists 0%nat; auto].
      - destruct IHN as [(j0 & H1 & H2)|H]; [left; exists j0; split; [lia|auto]|].
        destruct (Req_dec (a m (S N)) 0); [right; intros j Hj; destruct (Nat.eq_dec j (S N)) as [->|]; [auto|apply H; lia]|left; exists (S N); auto]. }
    destruct D as [(j0 & Hj0 & Hp)|Hz].
    + destruct (IH (fun i j => a i (skip j0 j) - a i j0 * a m (skip j0 j) / a m j0)) as (z & (j1 & Hj1 & Hz1) & HE).
      set (v := - sumn (S m) (fun j => a m (skip j0 j) * z j) / a m j0).
      exists (fun j => if (j =? j0)%nat then v else z (unskip j0 j)).
      assert (ES : forall i, sumn (S (S m)) (fun j => a i j * (if (j =? j0)%nat then v else z (unskip j0 j))) = a i j0 * v + sumn (S m) (fun j => a i (skip j0 j) * z j)).
      { intros i. rewrite (sumn_skip (S m) j0) by exact Hj0. rewrite Nat.eqb_refl. f_equal. apply sumn_ext. intros j Hj.
        destruct (Nat.eqb_spec (skip j0 j) j0) as [E|]; [exfalso; exact (skip_ne _ _ E)|]. rewrite unskip_skip. reflexivity. }
      split.
      * exists (skip j0 j1). split; [unfold skip; destruct (Nat.ltb_spec j1 j0); lia|]. destruct (Nat.eqb_spec (skip j0 j1) j0) as [E|]; [exfalso; exact (skip_ne _ _ E)|].
        rewrite unskip_skip. exact Hz1.
      * intros i Hi. rewrite ES. destruct (Nat.eq_dec i m) as [->|]; [unfold v; field; exact Hp|].
        specialize (HE i ltac:(lia)).
        rewrite (sumn_ext (S m) _ (fun j => a i (skip j0 j) * z j - a i j0 / a m j0 * (a m (skip j0 j) * z j))) in HE by (intros; field; exact Hp).
        rewrite sumn_minus, sumn_scal in HE. unfold v.
        replace (a i j0 * (- sumn (S m) (fun j => a m (skip j0 j) * z j) / a m j0)) with (- (a i j0 / a m j0 * sumn (S m) (fun j => a m (skip j0 j) * z j))) by (field; exact Hp). lra.
    + destruct (IH a) as (z & (j1 & Hj1 & Hz1) & HE). exists (fun j => if (j =? S m)%nat then 0 else z j). split.
      * exists j1. split; [lia|]. destruct (Nat.eqb_spec j1 (S m)); [lia|exact Hz1].
      * intros i Hi. rewrite sumn_S, Nat.eqb_refl, Rmult_0_r, Rplus_0_r.
        rewrite (sumn_ext (S m) _ (fun j => a i j * z j)) by (intros j Hj; destruct (Nat.eqb_spec j (S m)); [lia|reflexivity]).
        destruct (Nat.eq_dec i m) as [->|]; [|apply HE; lia]. rewrite (sumn_ext _ _ (fun _ => 0)); [rewrite sumn_const; ring|]. intros j Hj. rewrite Hz by lia. ring.
Qed.

Section Chain.
  Variables n p : nat.
  Hypothesis Hn : (0 < n)%nat.

  Lemma final_cell : forall l X i j, wf n p X -> is_chain p X l -> (i < n)%nat -> (j < p)%nat ->
    mget (final X l) i j = mget X i j - sumn (length l) (fun a => nth i (d_t (nth a l dc0)) 0 * nth j (d_q (nth a l dc0)) 0).
  Proof.
    induction l as [|c l IH]; intros X i j HX Hc Hi Hj; [cbn [final length]; rewrite sumn_0; ring|].
    destruct (step_wf n p Hn X c l HX Hc) as [(H1 & H2 & H3) Hd]. assert (Hc' := Hc). destruct Hc as (_ & _ & _ & _ & Hc).
    cbn [final length]. rewrite IH by auto. unfold deflated at 1. rewrite (mget_msub n p) by (auto; rewrite <- H2, <- H3; apply wf_outer). rewrite mget_outer by lia.
    rewrite (sumn_S_l (length l)). cbn [nth]. fold dc0. lra.
  Qed.
  Lemma final_col : forall l X a j, wf n p X -> is_chain p X l -> (a < length l)%nat -> (j < p)%nat ->
    sumn n (fun i => nth i (d_t (nth a l dc0)) 0 * mget (final X l) i j) = 0.
  Proof.
    intros l X a j HX Hc Ha Hj. destruct (chain_wf n p Hn l X HX Hc) as [HF HW].
    set (c := nth a l dc0). assert (Hin : In c l) by (apply nth_In; exact Ha).
    assert (Hlt : length (d_t c) = n) by (rewrite Forall_forall in HF; destruct (HF c Hin) as (_ & H2 & _); exact H2).
    pose proof (final_perp n p Hn l X c HX Hc Hin) as HP. set (F := final X l) in *.
    assert (Hlv : length (tmatvec F (d_t c)) = p) by (apply (tmatvec_length n p); auto).
    specialize (HP (tmatvec F (d_t c)) Hlv). rewrite <- (L_Lin.adjoint n p) in HP by auto.
    apply dot_self_zero in HP. rewrite Forall_forall in HP.
    assert (E : nth j (tmatvec F (d_t c)) 0 = 0) by (apply HP, nth_In; lia).
    rewrite (nth_tmatvec n p) in E by auto. rewrite (dot_col_sumn n p) in E by auto. refine (eq_trans _ E). apply sumn_ext. intros i Hi. apply Rmult_comm.
  Qed.
  (** the loadings are the least squares coefficients of the columns on the scores *)
  Lemma final_least : forall l X (Q : nat -> nat -> R), wf n p X -> is_chain p X l ->
    fro n p (final X l) <= sumn n (fun i => sumn p (fun j => (mget X i j - sumn (length l) (fun a => nth i (d_t (nth a l dc0)) 0 * Q j a)) * (mget X i j - sumn (length l) (fun a => nth i (d_t (nth a l dc0)) 0 * Q j a)))).
  Proof.
    intros l X Q HX Hc. set (t a i := nth i (d_t (nth a l dc0)) 0). set (D a j := nth j (d_q (nth a l dc0)) 0 - Q j a). set (G i j := sumn (length l) (fun a => t a i * D a j)).
    rewrite (sumn_ext n _ (fun i => sumn p (fun j => mget (final X l) i j * mget (final X l) i j) + 2 * sumn p (fun j => mget (final X l) i j * G i j) + sumn p (fun j => G i j * G i j))).
    - rewrite !sumn_plus, sumn_scal.
      assert (Z : sumn n (fun i => sumn p (fun j => mget (final X l) i j * G i j)) = 0).
      { rewrite (sumn_exchange n p). rewrite (sumn_ext p _ (fun _ => 0)); [rewrite sumn_const; ring|]. intros j Hj.
        rewrite (sumn_ext n _ (fun i => sumn (length l) (fun a => D a j * (t a i * mget (final X l) i j)))) by (intros i Hi; unfold G; rewrite <- sumn_scal; apply sumn_ext; intros; ring).
        rewrite (sumn_exchange n (length l)). rewrite (sumn_ext (length l) _ (fun _ => 0)); [rewrite sumn_const; ring|]. intros a Ha.
        rewrite sumn_scal. unfold t. rewrite final_col by auto. ring. }
      rewrite Z. unfold fro. assert (0 <= sumn n (fun i => sumn p (fun j => G i j * G i j))) by (apply sumn_nonneg; intros i _; apply sumn_nonneg; intros j _; apply Rle_0_sqr). lra.
    - intros i Hi. rewrite <- sumn_scal, <- !sumn_plus. apply sumn_ext. intros j Hj. rewrite (final_cell l X i j) by auto.
      assert (EG : G i j = sumn (length l) (fun a => t a i * nth j (d_q (nth a l dc0)) 0) - sumn (length l) (fun a => t a i * Q j a)).
      { unfold G, D. rewrite <- sumn_minus. apply sumn_ext. intros; ring. }
      rewrite EG. change (fun a => nth i (d_t (nth a l dc0)) 0 * nth j (d_q (nth a l dc0)) 0) with (fun a => t a i * nth j (d_q (nth a l dc0)) 0).
      change (fun a => nth i (d_t (nth a l dc0)) 0 * Q j a) with (fun a => t a i * Q j a). ring.
  Qed.
  Lemma final_nul : forall l X c, wf n p X -> is_chain p X l -> In c l -> nul n (final X l) (d_w c).
  Proof.
    induction l as [|c0 l IH]; intros X c HX Hc Hin; [destruct Hin|].
    destruct (step_wf n p Hn X c0 l HX Hc) as [(H1 & H2 & H3) Hd]. assert (Hc' := Hc). destruct Hc as (_ & _ & _ & _ & Hc). cbn [final].
    destruct Hin as [<-|Hin]; [|apply IH; auto]. apply (nul_chain n p Hn l (deflated X c0)); auto. apply (nul_own n p Hn X c0 l); auto.
  Qed.
  (** with p components nothing is left *)
  Lemma final_zero : forall l X i j, wf n p X -> is_chain p X l -> length l = p -> (i < n)%nat -> (j < p)%nat -> mget (final X l) i j = 0.
  Proof.
    intros l X i j HX Hc Hl Hi Hj. destruct (chain_wf n p Hn l X HX Hc) as [HF HW]. set (F := final X l) in *.
    set (r := nth i F []). assert (Hlr : length r = p) by (apply (wf_row n p F); [exact HW|]; apply nth_In; rewrite (wf_length _ _ _ HW); exact Hi).
    assert (Hr : forall a, (a < p)%nat -> sumn p (fun k => nth k r 0 * nth k (d_w (nth a l dc0)) 0) = 0).
    { intros a Ha. set (c := nth a l dc0). assert (Hin : In c l) by (apply nth_In; lia). rewrite Forall_forall in HF. destruct (HF c Hin) as (Hw & _ & _).
      pose proof (final_nul l X c HX Hc Hin) as HN. fold F in HN.
      specialize (HN (matvec F (d_w c)) ltac:(rewrite matvec_length; apply (wf_length _ _ _ HW))). apply dot_self_zero in HN. rewrite Forall_forall in HN.
      assert (E : nth i (matvec F (d_w c)) 0 = 0) by (apply HN, nth_In; rewrite matvec_length, (wf_length _ _ _ HW); exact Hi).
      rewrite nth_matvec in E by (rewrite (wf_length _ _ _ HW); exact Hi). fold r in E. rewrite (dot_sumn _ _ p) in E by auto. exact E. }
    destruct (kernel p (fun k a => if (a =? p)%nat then nth k r 0 else nth k (d_w (nth a l dc0)) 0)) as (z & (j1 & Hj1 & Hz1) & HE).
    assert (HE' : forall k, (k < p)%nat -> sumn p (fun a => nth k (d_w (nth a l dc0)) 0 * z a) + nth k r 0 * z p = 0).
    { intros k Hk. specialize (HE k Hk). rewrite sumn_S, Nat.eqb_refl in HE.
      rewrite (sumn_ext p _ (fun a => nth k (d_w (nth a l dc0)) 0 * z a)) in HE by (intros a Ha; destruct (Nat.eqb_spec a p); [lia|reflexivity]). exact HE. }
    destruct (Req_dec (dot r r) 0) as [Z|NZ].
    { apply dot_self_zero in Z. rewrite Forall_forall in Z. unfold mget. fold r. apply Z, nth_In. lia. }
    exfalso.
    assert (Hzp : z p = 0).
    { assert (S0 : sumn p (fun k => nth k r 0 * (sumn p (fun a => nth k (d_w (nth a l dc0)) 0 * z a) + nth k r 0 * z p)) = 0).
      { rewrite (sumn_ext p _ (fun _ => 0)); [rewrite sumn_const; ring|]. intros k Hk. rewrite HE' by auto. ring. }
      rewrite (sumn_ext p _ (fun k => sumn p (fun a => z a * (nth k r 0 * nth k (d_w (nth a l dc0)) 0)) + z p * (nth k r 0 * nth k r 0))) in S0.
      2:{ intros k Hk. rewrite Rmult_plus_distr_l, <- sumn_scal. f_equal; [apply sumn_ext; intros; ring|ring]. }
      rewrite sumn_plus, sumn_scal, <- (dot_sumn r r p) in S0 by auto. rewrite (sumn_exchange p p) in S0.
      rewrite (sumn_ext p _ (fun _ => 0)) in S0 by (intros a Ha; rewrite sumn_scal, Hr by auto; ring). rewrite sumn_const in S0.
      apply (Rmult_eq_reg_r (dot r r)); [|exact NZ]. lra. }
    assert (HW0 : forall k, (k < p)%nat -> sumn p (fun a => nth k (d_w (nth a l dc0)) 0 * z a) = 0) by (intros k Hk; specialize (HE' k Hk); rewrite Hzp in HE'; lra).
    (* z is zero from the top downwards *)
    assert (HB : forall m b, (b < p)%nat -> (p - m <= b)%nat -> z b = 0).
    { induction m as [|m IHm]; intros b Hb Hmb; [lia|]. destruct (le_lt_dec (p - m) b); [apply IHm; auto|].
      assert (S0 : sumn p (fun k => nth k (d_q (nth b l dc0)) 0 * sumn p (fun a => nth k (d_w (nth a l dc0)) 0 * z a)) = 0).
      { rewrite (sumn_ext p _ (fun _ => 0)); [rewrite sumn_const; ring|]. intros k Hk. rewrite HW0 by auto. ring. }
      rewrite (sumn_ext p _ (fun k => sumn p (fun a => z a * (nth k (d_q (nth b l dc0)) 0 * nth k (d_w (nth a l dc0)) 0)))) in S0 by (intros k Hk; rewrite <- sumn_scal; apply sumn_ext; intros; ring).
      rewrite (sumn_exchange p p) in S0.
      rewrite (sumn_ext p _ (fun a => if (a =? b)%nat then z a else 0)) in S0.
      - rewrite sumn_delta in S0 by exact Hb. exact S0.
      - intros a Ha. rewrite sumn_scal. assert (Hia : In (nth a l dc0) l) by (apply nth_In; lia). assert (Hib : In (nth b l dc0) l) by (apply nth_In; lia).
        rewrite Forall_forall in HF. destruct (HF _ Hia) as (Hwa & _ & _). destruct (HF _ Hib) as (_ & _ & Hqb). rewrite <- (dot_sumn (d_q (nth b l dc0)) (d_w (nth a l dc0)) p) by auto.
        destruct (le_lt_dec a b) as [L|L].
        + rewrite (unit_upper n p Hn l X b a) by (auto; lia). rewrite (Nat.eqb_sym a b). destruct (b =? a)%nat; ring.
        + rewrite (IHm a Ha) by lia. destruct (Nat.eqb_spec a b); [lia|ring]. }
    destruct (Nat.eq_dec j1 p) as [->|]; [contradiction|]. apply Hz1. apply (HB p); lia.
  Qed.
End Chain.
