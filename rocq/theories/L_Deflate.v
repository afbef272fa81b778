(** Successive rank-one deflation X_{k+1} = X_k - t_k q_k', t_k = X_k w_k,
    q_k = X_k' t_k / <t_k,t_k>: the algebra shared by snipls and ppdire. *)

From Coq Require Import Reals List Arith ZArith Bool Lia Lra.
Import ListNotations.
From Verif Require Import Num Err Vec VecR L_Mat L_Lin L_Matmul.
Open Scope R_scope.

Record dcomp := mk_dcomp { d_w : list R; d_t : list R; d_q : list R }.
Definition dc0 := mk_dcomp [] [] [].
Definition deflated (X : list (list R)) (c : dcomp) := msub X (outer (d_t c) (d_q c)).
Fixpoint final (X : list (list R)) (l : list dcomp) : list (list R) :=
  match l with [] => X | c :: l' => final (deflated X c) l' end.
Fixpoint is_chain (p : nat) (X : list (list R)) (l : list dcomp) : Prop :=
  match l with
  | [] => True
  | c :: l' => length (d_w c) = p /\ d_t c = matvec X (d_w c) /\ dot (d_t c) (d_t c) <> 0 /\
      d_q c = vscale (/ dot (d_t c) (d_t c)) (tmatvec X (d_t c)) /\ is_chain p (deflated X c) l'
  end.

Section Chain.
  Variables n p : nat.
  Hypothesis Hn : (0 < n)%nat.

  Definition comp_wf (c : dcomp) : Prop := length (d_w c) = p /\ length (d_t c) = n /\ length (d_q c) = p.

  Lemma step_wf : forall X c l, wf n p X -> is_chain p X (c :: l) -> comp_wf c /\ wf n p (deflated X c).
  Proof.
    intros X c l HX (Hw & Ht & H0 & Hq & _).
    assert (Hlt : length (d_t c) = n) by (rewrite Ht, matvec_length; apply (wf_length _ _ _ HX)).
    assert (Hlq : length (d_q c) = p) by (rewrite Hq, vscale_length; apply (tmatvec_length n p); auto).
    split; [split; auto|]. unfold deflated. apply wf_msub; auto. rewrite <- Hlt, <- Hlq. apply wf_outer.
  Qed.
  Lemma chain_wf : forall l X, wf n p X -> is_chain p X l -> Forall comp_wf l /\ wf n p (final X l).
  Proof.
    induction l as [|c l IH]; intros X HX Hc; [split; [constructor|auto]|].
    destruct (step_wf X c l HX Hc) as [Hcw Hd]. destruct Hc as (_ & _ & _ & _ & Hc).
    destruct (IH _ Hd Hc) as [HF Hw]. split; [constructor; auto|exact Hw].
  Qed.
  Lemma q_dot : forall X c l w, wf n p X -> is_chain p X (c :: l) -> length w = p ->
    dot (d_q c) w = dot (d_t c) (matvec X w) / dot (d_t c) (d_t c).
  Proof.
    intros X c l w HX Hc Hw. destruct (step_wf X c l HX Hc) as [(H1 & H2 & H3) _].
    destruct Hc as (_ & _ & _ & Hq & _). rewrite Hq, dot_vscale_l. rewrite (adjoint n p) by auto. unfold Rdiv. ring.
  Qed.
  Lemma deflated_dot : forall X c l w u, wf n p X -> is_chain p X (c :: l) -> length w = p -> length u = n ->
    dot u (matvec (deflated X c) w) = dot u (matvec X w) - dot (d_q c) w * dot u (d_t c).
  Proof.
    intros X c l w u HX Hc Hw Hu. destruct (step_wf X c l HX Hc) as [(H1 & H2 & H3) _].
    unfold deflated. rewrite (matvec_deflate n p) by auto. rewrite dot_vsub_r, dot_vscale_r; [reflexivity|].
    rewrite matvec_length, vscale_length, (wf_length _ _ _ HX). auto.
  Qed.

  (** u is orthogonal to the range of X *)
  Definition perp (X : list (list R)) (u : list R) : Prop := forall w, length w = p -> dot u (matvec X w) = 0.
  (** X w0 = 0 *)
  Definition nul (X : list (list R)) (w0 : list R) : Prop := forall u, length u = n -> dot u (matvec X w0) = 0.

  Lemma perp_step : forall X c l u, wf n p X -> is_chain p X (c :: l) -> length u = n -> perp X u ->
    dot u (d_t c) = 0 /\ perp (deflated X c) u.
  Proof.
    intros X c l u HX Hc Hu HP. assert (E : dot u (d_t c) = 0).
    { destruct Hc as (Hw & -> & _). apply HP; auto. }
    split; auto. intros w Hw. rewrite (deflated_dot X c l) by auto. rewrite E, HP by auto. ring.
  Qed.
  Lemma perp_chain : forall l X u, wf n p X -> is_chain p X l -> length u = n -> perp X u ->
    (forall c, In c l -> dot u (d_t c) = 0) /\ perp (final X l) u.
  Proof.
    induction l as [|c l IH]; intros X u HX Hc Hu HP; [split; [intros c []|exact HP]|].
    destruct (perp_step X c l u HX Hc Hu HP) as [E HP']. destruct (step_wf X c l HX Hc) as [_ Hd].
    destruct Hc as (_ & _ & _ & _ & Hc). destruct (IH _ u Hd Hc Hu HP') as [Ha Hb]. split; [|exact Hb].
    intros c' [<-|Hin]; auto.
  Qed.
  Lemma perp_own : forall X c l, wf n p X -> is_chain p X (c :: l) -> perp (deflated X c) (d_t c).
  Proof.
    intros X c l HX Hc w Hw. destruct (step_wf X c l HX Hc) as [(H1 & H2 & H3) _].
    rewrite (deflated_dot X c l) by auto. rewrite (q_dot X c l) by auto. destruct Hc as (_ & _ & H0 & _). field. exact H0.
  Qed.
  Lemma nul_step : forall X c l w0, wf n p X -> is_chain p X (c :: l) -> length w0 = p -> nul X w0 ->
    dot (d_q c) w0 = 0 /\ nul (deflated X c) w0.
  Proof.
    intros X c l w0 HX Hc Hw HN. destruct (step_wf X c l HX Hc) as [(H1 & H2 & H3) _].
    assert (E : dot (d_q c) w0 = 0) by (rewrite (q_dot X c l) by auto; rewrite HN by auto; unfold Rdiv; ring).
    split; auto. intros u Hu. rewrite (deflated_dot X c l) by auto. rewrite E, HN by auto. ring.
  Qed.
  Lemma nul_chain : forall l X w0, wf n p X -> is_chain p X l -> length w0 = p -> nul X w0 ->
    (forall c, In c l -> dot (d_q c) w0 = 0) /\ nul (final X l) w0.
  Proof.
    induction l as [|c l IH]; intros X w0 HX Hc Hw HN; [split; [intros c []|exact HN]|].
    destruct (nul_step X c l w0 HX Hc Hw HN) as [E HN']. destruct (step_wf X c l HX Hc) as [_ Hd].
    destruct Hc as (_ & _ & _ & _ & Hc). destruct (IH _ w0 Hd Hc Hw HN') as [Ha Hb]. split; [|exact Hb].
    intros c' [<-|Hin]; auto.
  Qed.
  Lemma own_one : forall X c l, wf n p X -> is_chain p X (c :: l) -> dot (d_q c) (d_w c) = 1.
  Proof.
    intros X c l HX Hc. assert (Hc' := Hc). destruct Hc as (Hw & Ht & H0 & _). rewrite (q_dot X c l) by auto. rewrite <- Ht. field. exact H0.
  Qed.
  Lemma nul_own : forall X c l, wf n p X -> is_chain p X (c :: l) -> nul (deflated X c) (d_w c).
  Proof.
    intros X c l HX Hc u Hu. pose proof (own_one X c l HX Hc) as E1. assert (Hc' := Hc). destruct Hc as (Hw & Ht & H0 & _).
    rewrite (deflated_dot X c l) by auto. rewrite E1, <- Ht. ring.
  Qed.

  (** scores are orthogonal *)
  Lemma scores_orth : forall l X i j, wf n p X -> is_chain p X l -> (i < length l)%nat -> (j < length l)%nat -> i <> j ->
    dot (d_t (nth i l dc0)) (d_t (nth j l dc0)) = 0.
  Proof.
    intros l X i j HX Hc Hi Hj Hij. assert (Hlt : forall a b, (a < b)%nat -> (b < length l)%nat -> dot (d_t (nth a l dc0)) (d_t (nth b l dc0)) = 0).
    { clear i j Hi Hj Hij. revert X HX Hc. induction l as [|c l IH]; intros X HX Hc a b Hab Hb; cbn [length] in Hb; [lia|].
      destruct (step_wf X c l HX Hc) as [(H1 & H2 & H3) Hd]. destruct b as [|b]; [lia|]. cbn [nth]. destruct a as [|a].
      - assert (Hc' := Hc). destruct Hc as (_ & _ & _ & _ & Hc).
        destruct (perp_chain l _ (d_t c) Hd Hc H2 (perp_own X c l HX Hc')) as [Hp _]. apply Hp, nth_In. lia.
      - destruct Hc as (_ & _ & _ & _ & Hc). apply (IH _ Hd Hc); lia. }
    destruct (Nat.lt_ge_cases i j); [apply Hlt; auto|]. rewrite dot_comm. apply Hlt; lia.
  Qed.
  (** q_i' w_j = 0 for i > j, 1 for i = j *)
  Lemma unit_upper : forall l X i j, wf n p X -> is_chain p X l -> (j <= i)%nat -> (i < length l)%nat ->
    dot (d_q (nth i l dc0)) (d_w (nth j l dc0)) = if Nat.eqb i j then 1 else 0.
  Proof.
    induction l as [|c l IH]; intros X i j HX Hc Hji Hi; cbn [length] in Hi; [lia|].
    destruct (step_wf X c l HX Hc) as [(H1 & H2 & H3) Hd]. assert (Hc' := Hc). destruct Hc as (Hw & _ & _ & _ & Hc).
    destruct i as [|i].
    - assert (j = 0)%nat as -> by lia. cbn [nth Nat.eqb]. apply (own_one X c l); auto.
    - cbn [nth]. destruct j as [|j].
      + cbn [Nat.eqb]. destruct (nul_chain l _ (d_w c) Hd Hc Hw (nul_own X c l HX Hc')) as [Hp _]. apply Hp, nth_In. lia.
      + cbn [Nat.eqb]. apply (IH _ _ _ Hd Hc); lia.
  Qed.
  (** X w = sum_c <q_c,w> t_c + X_final w *)
  Lemma recon : forall l X w u, wf n p X -> is_chain p X l -> length w = p -> length u = n ->
    dot u (matvec X w) = vsum (map (fun c => dot (d_q c) w * dot u (d_t c)) l) + dot u (matvec (final X l) w).
  Proof.
    induction l as [|c l IH]; intros X w u HX Hc Hw Hu; [cbn [map vsum fold_right final map2]; rnum; ring|].
    destruct (step_wf X c l HX Hc) as [_ Hd]. assert (Hc' := Hc). destruct Hc as (_ & _ & _ & _ & Hc).
    cbn [map final]. rewrite vsum_cons. rewrite Rplus_assoc, <- (IH _ w u Hd Hc Hw Hu).
    rewrite (deflated_dot X c l) by auto. ring.
  Qed.
  (** loadings in terms of the undeflated data *)
  Lemma q_orig : forall l X c w, wf n p X -> is_chain p X l -> In c l -> length w = p ->
    dot (d_q c) w * dot (d_t c) (d_t c) = dot (d_t c) (matvec X w).
  Proof.
    induction l as [|c0 l IH]; intros X c w HX Hc Hin Hw; [destruct Hin|].
    destruct (step_wf X c0 l HX Hc) as [(H1 & H2 & H3) Hd]. destruct Hin as [<-|Hin].
    - rewrite (q_dot X c0 l) by auto. destruct Hc as (_ & _ & H0 & _). field. exact H0.
    - assert (Hc' := Hc). destruct Hc as (_ & _ & _ & _ & Hc). rewrite (IH _ c w Hd Hc Hin Hw).
      destruct (chain_wf l _ Hd Hc) as [HF _]. rewrite Forall_forall in HF. destruct (HF c Hin) as (_ & Hlt & _).
      rewrite (deflated_dot X c0 l) by auto.
      destruct (perp_chain l _ (d_t c0) Hd Hc H2 (perp_own X c0 l HX Hc')) as [Hp _]. rewrite (dot_comm (d_t c) (d_t c0)), Hp by auto. ring.
  Qed.
  Lemma final_perp : forall l X c, wf n p X -> is_chain p X l -> In c l -> perp (final X l) (d_t c).
  Proof.
    induction l as [|c0 l IH]; intros X c HX Hc Hin; [destruct Hin|].
    destruct (step_wf X c0 l HX Hc) as [(H1 & H2 & H3) Hd]. assert (Hc' := Hc). destruct Hc as (_ & _ & _ & _ & Hc). cbn [final].
    destruct Hin as [<-|Hin].
    - destruct (perp_chain l _ (d_t c0) Hd Hc H2 (perp_own X c0 l HX Hc')) as [_ Hp]. exact Hp.
    - apply IH; auto.
  Qed.

  (** sum of squares *)
  Definition fro (X : list (list R)) : R := sumn n (fun i => sumn p (fun j => mget X i j * mget X i j)).
  Lemma fro_nonneg : forall X, 0 <= fro X.
  Proof. intros X. apply sumn_nonneg. intros i _. apply sumn_nonneg. intros j _. apply Rle_0_sqr. Qed.
  Lemma fro_step : forall X c l, wf n p X -> is_chain p X (c :: l) ->
    fro (deflated X c) = fro X - dot (d_t c) (d_t c) * dot (d_q c) (d_q c).
  Proof.
    intros X c l HX Hc. destruct (step_wf X c l HX Hc) as [(H1 & H2 & H3) Hd].
    assert (Ecross : sumn n (fun i => sumn p (fun j => mget X i j * (nth i (d_t c) 0 * nth j (d_q c) 0))) = dot (d_t c) (d_t c) * dot (d_q c) (d_q c)).
    { transitivity (dot (d_t c) (matvec X (d_q c))).
      - rewrite (dot_sumn _ _ n) by (auto; rewrite matvec_length; apply (wf_length _ _ _ HX)). apply sumn_ext. intros i Hi.
        rewrite nth_matvec by (rewrite (wf_length _ _ _ HX); auto). rewrite (dot_row_sumn n p) by auto. rewrite <- sumn_scal.
        apply sumn_ext. intros; ring.
      - rewrite (q_dot X c l (d_q c)) by auto. destruct Hc as (_ & _ & H0 & _). field. exact H0. }
    assert (Esq : sumn n (fun i => sumn p (fun j => (nth i (d_t c) 0 * nth j (d_q c) 0) * (nth i (d_t c) 0 * nth j (d_q c) 0))) = dot (d_t c) (d_t c) * dot (d_q c) (d_q c)).
    { rewrite (dot_sumn (d_t c) _ n), (dot_sumn (d_q c) _ p) by auto. rewrite <- sumn_scal_r. apply sumn_ext. intros i Hi.
      rewrite <- sumn_scal. apply sumn_ext. intros; ring. }
    unfold fro.
    rewrite (sumn_ext n _ (fun i => sumn p (fun j => mget X i j * mget X i j) - 2 * sumn p (fun j => mget X i j * (nth i (d_t c) 0 * nth j (d_q c) 0))
      + sumn p (fun j => (nth i (d_t c) 0 * nth j (d_q c) 0) * (nth i (d_t c) 0 * nth j (d_q c) 0)))).
    - rewrite sumn_plus, sumn_minus, sumn_scal, Ecross, Esq. ring.
    - intros i Hi. rewrite <- sumn_scal, <- sumn_minus, <- sumn_plus. apply sumn_ext. intros j Hj.
      unfold deflated. rewrite (mget_msub n p) by (auto; rewrite <- H2, <- H3; apply wf_outer). rewrite mget_outer by lia. ring.
  Qed.
  Lemma fro_chain : forall l X, wf n p X -> is_chain p X l ->
    fro X = fro (final X l) + vsum (map (fun c => dot (d_t c) (d_t c) * dot (d_q c) (d_q c)) l).
  Proof.
    induction l as [|c l IH]; intros X HX Hc; [cbn [map vsum fold_right final map2]; rnum; ring|].
    destruct (step_wf X c l HX Hc) as [_ Hd]. assert (Hc' := Hc). destruct Hc as (_ & _ & _ & _ & Hc).
    cbn [map final]. rewrite vsum_cons. pose proof (IH _ Hd Hc) as E. rewrite (fro_step X c l) in E by auto. lra.
  Qed.

  (** deflation of y by the same scores *)
  Definition ystep (y t : list R) : list R := vsub y (vscale (dot y t / dot t t) t).
  Fixpoint yfinal (y : list R) (l : list dcomp) : list R :=
    match l with [] => y | c :: l' => yfinal (ystep y (d_t c)) l' end.
  Fixpoint ycoefs (y : list R) (l : list dcomp) : list R :=
    match l with [] => [] | c :: l' => dot y (d_t c) / dot (d_t c) (d_t c) :: ycoefs (ystep y (d_t c)) l' end.

  Lemma ystep_length : forall y t, length y = n -> length t = n -> length (ystep y t) = n.
  Proof. intros y t Hy Ht. unfold ystep. rewrite vsub_length; auto. rewrite vscale_length. lia. Qed.
  Lemma ystep_dot : forall y t u, length y = n -> length t = n -> dot (ystep y t) u = dot y u - dot y t / dot t t * dot t u.
  Proof. intros y t u Hy Ht. unfold ystep. rewrite dot_vsub_l by (rewrite vscale_length; lia). rewrite dot_vscale_l. reflexivity. Qed.
  Lemma yfinal_length : forall l y, length y = n -> Forall comp_wf l -> length (yfinal y l) = n.
  Proof.
    induction l as [|c l IH]; intros y Hy HF; auto. inversion HF as [|? ? (H1 & H2 & H3) HF']; subst. cbn [yfinal].
    apply IH; auto. apply ystep_length; auto.
  Qed.
  Lemma yfinal_dot : forall l y u, length y = n -> Forall comp_wf l ->
    dot y u = vsum (map2 (fun a c => a * dot (d_t c) u) (ycoefs y l) l) + dot (yfinal y l) u.
  Proof.
    induction l as [|c l IH]; intros y u Hy HF; [cbn [map vsum fold_right final map2 ycoefs yfinal]; rnum; ring|]. inversion HF as [|? ? (H1 & H2 & H3) HF']; subst.
    cbn [yfinal ycoefs map2]. rewrite vsum_cons, Rplus_assoc, <- (IH _ u (ystep_length y (d_t c) Hy H2) HF').
    rewrite ystep_dot by auto. ring.
  Qed.
  Lemma ycoefs_length : forall l y, length (ycoefs y l) = length l.
  Proof. induction l as [|c l IH]; intros y; cbn; auto. Qed.
  (** the residual is orthogonal to all scores and the coefficients do not
      depend on the deflation *)
  Lemma y_orth : forall l X y, wf n p X -> is_chain p X l -> length y = n ->
    (forall i, (i < length l)%nat -> nth i (ycoefs y l) 0 = dot y (d_t (nth i l dc0)) / dot (d_t (nth i l dc0)) (d_t (nth i l dc0))) /\
    (forall c, In c l -> dot (yfinal y l) (d_t c) = 0).
  Proof.
    induction l as [|c l IH]; intros X y HX Hc Hy; [split; [cbn; intros; lia|intros c []]|].
    destruct (step_wf X c l HX Hc) as [(H1 & H2 & H3) Hd]. assert (Hc' := Hc). destruct Hc as (_ & _ & H0 & _ & Hc).
    destruct (perp_chain l _ (d_t c) Hd Hc H2 (perp_own X c l HX Hc')) as [Hp _].
    destruct (chain_wf l _ Hd Hc) as [HF _].
    destruct (IH _ (ystep y (d_t c)) Hd Hc (ystep_length y (d_t c) Hy H2)) as [Ha Hb]. cbn [ycoefs yfinal]. split.
    - intros [|i] Hi; cbn [nth]; [reflexivity|]. cbn [length] in Hi. rewrite Ha by lia. rewrite ystep_dot by auto.
      rewrite (Hp (nth i l dc0)) by (apply nth_In; lia). unfold Rdiv; ring.
    - intros c' [<-|Hin]; [|apply Hb; auto].
      pose proof (yfinal_dot l (ystep y (d_t c)) (d_t c) (ystep_length y _ Hy H2) HF) as E.
      rewrite ystep_dot in E by auto.
      assert (Ez : vsum (map2 (fun a c0 => a * dot (d_t c0) (d_t c)) (ycoefs (ystep y (d_t c)) l) l) = 0).
      { apply vsum_zero. intros v Hv. apply (In_nth _ _ 0) in Hv as (i & Hi & <-). rewrite map2_length, ycoefs_length in Hi.
        rewrite (nth_map2 _ _ _ _ 0 dc0) by (rewrite ?ycoefs_length; lia). rewrite (dot_comm _ (d_t c)), Hp by (apply nth_In; lia). ring. }
      rewrite Ez in E. replace (dot y (d_t c) - dot y (d_t c) / dot (d_t c) (d_t c) * dot (d_t c) (d_t c)) with 0 in E by (field; auto). lra.
  Qed.
  Lemma ystep_sq : forall y t, length y = n -> length t = n -> dot t t <> 0 ->
    dot (ystep y t) (ystep y t) = dot y y - dot t t * ((dot y t / dot t t) * (dot y t / dot t t)).
  Proof.
    intros y t Hy Ht H0. rewrite ystep_dot by auto. rewrite (dot_comm y (ystep y t)), (dot_comm t (ystep y t)). rewrite !ystep_dot by auto.
    rewrite (dot_comm t y). field. exact H0.
  Qed.
  Lemma y_pyth : forall l X y, wf n p X -> is_chain p X l -> length y = n ->
    dot y y = dot (yfinal y l) (yfinal y l) + vsum (map2 (fun a c => dot (d_t c) (d_t c) * (a * a)) (ycoefs y l) l).
  Proof.
    induction l as [|c l IH]; intros X y HX Hc Hy; [cbn [map vsum fold_right final map2 ycoefs yfinal]; rnum; ring|].
    destruct (step_wf X c l HX Hc) as [(H1 & H2 & H3) Hd]. assert (Hc' := Hc). destruct Hc as (_ & _ & H0 & _ & Hc).
    cbn [ycoefs yfinal map2]. rewrite vsum_cons. pose proof (IH _ (ystep y (d_t c)) Hd Hc (ystep_length y _ Hy H2)) as E.
    rewrite ystep_sq in E by auto. lra.
  Qed.
End Chain.
