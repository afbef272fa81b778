(** ppdire.fit without whitening and compression: scores, rotations, transform. *)

From Coq Require Import String Reals List Arith ZArith Bool Lia Lra.
Import List. Import ListNotations.
From Verif Require Import Num Err Vec VecR L_Mat L_Lin L_Matmul L_Deflate M_Utils M_Preproc M_Robcent L_Stats L_Scaling M_Dicomo M_Ipopt M_Ppdire
  S_Stats S_Regress L_Snipls L_Snipls2 S_Ppdire L_Pp L_Pp2.
Open Scope R_scope.

(** ** scores *)
Lemma gchain_nth_len : forall prm most kw two K n p l E i, gchain prm most kw two K n p E l -> (i < length l)%nat ->
  length (g_t (nth i l pc0)) = n /\ length (g_dir (nth i l pc0)) = p /\ length (g_w (nth i l pc0)) = p.
Proof.
  intros prm most kw two K n p l. induction l as [|c l IH]; intros E i Hc Hi; [cbn in Hi; lia|]. destruct Hc as ((H1 & H2 & H3 & H4 & H5 & H6 & _) & Hc).
  destruct i as [|i]; cbn [nth]; [|apply (IH (g_E c)); auto; cbn in Hi; lia]. split; [|split; auto]. rewrite H3, matvec_length. apply (wf_length _ _ _ H1).
Qed.
Lemma T_col : forall n (cs : list (pcomp R)) i, (i < length cs)%nat -> length (g_t (nth i cs pc0)) = n -> column i (of_cols n (map g_t cs)) = g_t (nth i cs pc0).
Proof.
  intros n cs i Hi Hl. rewrite <- (map_nth g_t cs pc0 i). apply (col_of_cols n (map g_t cs) i); [rewrite map_length; auto|].
  change (@nil R) with (g_t pc0). rewrite map_nth. exact Hl.
Qed.


Lemma run_chain : forall prm most kw two K n p Xs (cs : list (pcomp R)), gchain prm most kw two K n p Xs cs ->
  nonzero_cols (of_cols n (map g_t cs)) (length cs) -> is_chain p Xs (map todc cs).
Proof.
  intros prm most kw two K n p Xs cs Hg Hz. apply (gchain_chain prm most kw two K n); auto. apply Forall_forall. intros c Hc.
  destruct (In_nth _ _ pc0 Hc) as (i & Hi & <-). specialize (Hz i Hi). rewrite T_col, sqlen_dot in Hz by (auto; eapply gchain_nth_len; eauto). exact Hz.
Qed.
Lemma gchain_wf : forall prm most kw two K n p E l, gchain prm most kw two K n p E l -> (0 < length l)%nat -> wf n p E.
Proof. intros prm most kw two K n p E [|c l] Hc Hl; [cbn in Hl; lia|]. apply Hc. Qed.
Lemma nth_todc : forall cs i, nth i (map todc cs) dc0 = todc (nth i cs pc0).
Proof. intros. change dc0 with (todc pc0). apply map_nth. Qed.

Lemma C66_l : forall (env : pp_env R) prm d X f prm' d' m n p, is_matrix n p X -> pp_fit env prm d X f = (prm', d', Ok m) ->
  is_matrix n (pp_ncomp prm') (pm_T m) /\
  (nonzero_cols (pm_T m) (pp_ncomp prm') -> forall i j, (i < pp_ncomp prm')%nat -> (j < pp_ncomp prm')%nat -> i <> j ->
     orthogonal (column i (pm_T m)) (column j (pm_T m))).
Proof.
  intros env prm d X f prm' d' m n p HX E. apply run in E; [|exact (wf_rect n p X HX)].
  destruct E as (most & s & X1 & q & dims & mX & sX & Xs0 & Xs & K & yi & cs & yc & Rt & _ & _ & Hh & _ & _ & _ & _ & _ & _ & Hl & Hg & _ & _ & _ & _ & (_ & mX' & sX' & Xs' & _ & ym & -> & _)).
  cbn [pm_T]. pose proof (wf_length n p X HX) as Hn. rewrite Hn in *. rewrite <- Hl in *. split; [rewrite <- (map_length g_t cs); apply wf_of_cols|].
  intros Hz i j Hi Hj Hij. pose proof (run_chain _ _ _ _ _ _ _ _ _ Hg Hz) as Hc.
  rewrite !T_col by (auto; eapply gchain_nth_len; eauto). unfold orthogonal. rewrite inner_dot.
  pose proof (scores_orth n q ltac:(lia) (map todc cs) Xs i j (gchain_wf _ _ _ _ _ _ _ _ _ Hg ltac:(lia)) Hc) as H. rewrite map_length, !nth_todc in H. apply H; auto.
Qed.

(** ** a unit upper triangular matrix has the pseudo-inverse as right inverse *)
Lemma tri_cancel : forall k (D M : nat -> nat -> R), (forall b j, (b < k)%nat -> (j < k)%nat -> (j <= b)%nat -> M b j = if Nat.eqb b j then 1 else 0) ->
  forall i, (forall j, (j < k)%nat -> sumn k (fun b => D i b * M b j) = 0) -> forall j, (j < k)%nat -> D i j = 0.
Proof.
  intros k D M HM i HD j. induction j as [j IH] using (well_founded_induction lt_wf). intros Hj.
  specialize (HD j Hj). rewrite (sumn_ext k _ (fun b => if Nat.eqb b j then D i b else 0)) in HD.
  - rewrite sumn_delta in HD by auto. exact HD.
  - intros b Hb. destruct (Nat.lt_trichotomy b j) as [Hlt|[->|Hgt]].
    + rewrite (IH b Hlt Hb). destruct (Nat.eqb_spec b j); [lia|]. ring.
    + rewrite HM by lia. rewrite Nat.eqb_refl. ring.
    + rewrite HM by lia. destruct (Nat.eqb_spec b j); [lia|]. ring.
Qed.
Lemma penrose_right : forall pinv k M N, penrose pinv -> (0 < k)%nat -> wf k k M -> pinv M = Ok N ->
  (forall b j, (b < k)%nat -> (j < k)%nat -> (j <= b)%nat -> mget M b j = if Nat.eqb b j then 1 else 0) -> wf k k N /\ matmul M N = identity k.
Proof.
  intros pinv k M N Hp Hk HM E Ht. destruct (Hp k M N HM E) as [HN H]. split; [exact HN|].
  apply (mat_ext k k); [apply (wf_matmul k k); auto|apply wf_identity|]. intros i j Hi Hj. rewrite mget_identity by auto.
  assert (H0 : mget (matmul M N) i j - (if Nat.eqb i j then 1 else 0) = 0).
  { apply (tri_cancel k (fun i j => mget (matmul M N) i j - (if Nat.eqb i j then 1 else 0)) (mget M) Ht i); auto. intros j' Hj'.
    specialize (H i j' Hi Hj'). rewrite sum_of_seq in H.
    rewrite (sumn_ext k _ (fun b => mget (matmul M N) i b * mget M b j' - (if Nat.eqb b i then mget M b j' else 0))).
    - rewrite sumn_minus, sumn_delta by auto. rewrite (sumn_ext k _ (fun b => sum_of (map (fun a => cell M i a * cell N a b) (seq 0 k)) * cell M b j')).
      + rewrite H. change (cell M i j') with (mget M i j'). ring.
      + intros b Hb. rewrite (mget_matmul k k k) by auto. reflexivity.
    - intros b Hb. rewrite (Nat.eqb_sym b i). destruct (Nat.eqb i b); ring. }
  lra.
Qed.

(** ** X_s R = T *)
Lemma rot_transform : forall env prm most kw two n p Xs (cs : list (pcomp R)) Rt, penrose (pe_pinv env) -> (0 < n)%nat -> (0 < p)%nat -> (0 < length cs)%nat ->
  gchain prm most kw two None n p Xs cs -> nonzero_cols (of_cols n (map g_t cs)) (length cs) -> rotations env p cs = Ok Rt ->
  wf p (length cs) Rt /\ matmul Xs Rt = of_cols n (map g_t cs).
Proof.
  intros env prm most kw two n p Xs cs Rt Hp Hn Hp0 Hl Hg Hz ER. pose proof (run_chain _ _ _ _ _ _ _ _ _ Hg Hz) as Hc.
  pose proof (gchain_wf _ _ _ _ _ _ _ _ _ Hg Hl) as HXs.
  assert (Hw : map g_w cs = map g_dir cs).
  { clear -Hg. revert Xs Hg. induction cs as [|c l IH]; intros E Hg; auto. destruct Hg as ((_ & _ & _ & _ & _ & _ & H & _) & Hg). cbn. f_equal; eauto. }
  unfold rotations in ER. rewrite Hw in ER.
  set (k := length cs) in *. set (W := of_cols p (map g_dir cs)) in *. set (P := of_cols p (map g_p cs)) in *. set (T := of_cols n (map g_t cs)).
  destruct (pe_pinv env (matmul (transpose P) W)) as [N|] eqn:EN; cbn [bind] in ER; [|discriminate]. apply Ok_inj in ER. subst Rt.
  assert (HW : wf p k W) by (unfold W, k; rewrite <- (map_length g_dir cs); apply wf_of_cols).
  assert (HP : wf p k P) by (unfold P, k; rewrite <- (map_length g_p cs); apply wf_of_cols).
  assert (HT : wf n k T) by (unfold T, k; rewrite <- (map_length g_t cs); apply wf_of_cols).
  assert (HPt : wf k p (transpose P)) by (apply wf_cols; auto).
  assert (HM : wf k k (matmul (transpose P) W)) by (apply (wf_matmul _ p); auto).
  assert (Lq : forall a, (a < k)%nat -> length (g_p (nth a cs pc0)) = p).
  { intros a Ha. pose proof (proj1 (chain_wf n p Hn (map todc cs) Xs HXs Hc)) as HF. rewrite Forall_forall in HF.
    destruct (HF (todc (nth a cs pc0))) as (_ & _ & H); [apply in_map, nth_In; auto|]. exact H. }
  assert (Lw : forall a, (a < k)%nat -> length (g_dir (nth a cs pc0)) = p) by (intros; eapply gchain_nth_len; eauto).
  assert (Wc : forall j b, (j < p)%nat -> (b < k)%nat -> mget W j b = nth j (g_dir (nth b cs pc0)) 0).
  { intros j b Hj Hb. unfold W. rewrite mget_of_cols_R by (auto; rewrite map_length; auto). change (@nil R) with (g_dir pc0). rewrite map_nth. reflexivity. }
  assert (Pc : forall j b, (j < p)%nat -> (b < k)%nat -> mget P j b = nth j (g_p (nth b cs pc0)) 0).
  { intros j b Hj Hb. unfold P. rewrite mget_of_cols_R by (auto; rewrite map_length; auto). change (@nil R) with (g_p pc0). rewrite map_nth. reflexivity. }
  assert (Mc : forall a b, (a < k)%nat -> (b < k)%nat -> mget (matmul (transpose P) W) a b = dot (g_p (nth a cs pc0)) (g_dir (nth b cs pc0))).
  { intros a b Ha Hb. rewrite (mget_matmul k p k) by auto. rewrite (dot_sumn _ _ p) by auto. apply sumn_ext. intros j Hj. change (@n0 R Num_R) with 0.
    assert (E2 : mget (cols P) a j = mget P j a) by (apply (mget_cols p k); auto). unfold transpose. rewrite E2, Wc, Pc by auto. reflexivity. }
  destruct (penrose_right (pe_pinv env) k _ N Hp Hl HM EN) as [HN Hid].
  { intros b j Hb Hj Hjb. rewrite Mc by auto. pose proof (unit_upper n p Hn (map todc cs) Xs b j HXs Hc Hjb) as H. rewrite map_length, !nth_todc in H. apply H; auto. }
  split; [apply (wf_matmul p k); auto|]. 
  rewrite (matmul_assoc n p k k) by auto.
  assert (Key : matmul Xs W = matmul T (matmul (transpose P) W)).
  { apply (mat_ext n k); [apply (wf_matmul n p); auto|apply (wf_matmul n k); auto|]. intros i b Hi Hb.
    assert (EL : mget (matmul Xs W) i b = nth i (matvec Xs (g_dir (nth b cs pc0))) 0).
    { rewrite (mget_matmul n p k) by auto. rewrite nth_matvec by (rewrite (wf_length _ _ _ HXs); auto).
      rewrite (dot_row_sumn n p) by auto. apply sumn_ext. intros j Hj. f_equal. apply (Wc j b); auto. }
    change (@n0 R Num_R) with 0. rewrite EL.
    set (ei := map (fun b => if Nat.eqb b i then 1 else 0) (seq 0 n)).
    assert (Hei : length ei = n) by (unfold ei; rewrite map_length, seq_length; auto).
    assert (Hunit : forall v, length v = n -> dot ei v = nth i v 0).
    { intros v Hv. rewrite (dot_sumn _ _ n) by auto. rewrite <- (sumn_delta n i (fun b => nth b v 0)) by auto.
      apply sumn_ext. intros a Ha. unfold ei. rewrite (nth_map_lt _ _ _ 0%nat) by (rewrite seq_length; auto). rewrite seq_nth by auto. cbn [Nat.add].
      destruct (Nat.eqb a i); ring. }
    rewrite <- Hunit by (rewrite matvec_length; apply (wf_length _ _ _ HXs)).
    rewrite (recon n p Hn (map todc cs) Xs _ ei HXs Hc (Lw b Hb) Hei).
    assert (Hnul : nul n (final Xs (map todc cs)) (d_w (nth b (map todc cs) dc0))) by (apply (final_nul n p); auto; apply nth_In; rewrite map_length; auto).
    rewrite nth_todc in Hnul. specialize (Hnul ei Hei). cbn [todc d_w] in Hnul. rewrite Hnul, Rplus_0_r.
    rewrite (vsum_map_sumn _ _ dc0), map_length. rewrite (mget_matmul n k k) by auto.
    apply sumn_ext. intros a Ha. change (@n0 R Num_R) with 0. rewrite !nth_todc. cbn [todc d_q d_t].
    destruct (gchain_nth_len _ _ _ _ _ _ _ _ _ a Hg Ha) as (Lt & _). rewrite Hunit by auto. rewrite (Mc a b) by auto.
    assert (Et : mget T i a = nth i (g_t (nth a cs pc0)) 0).
    { unfold T. rewrite mget_of_cols_R by (auto; rewrite map_length; auto). change (@nil R) with (g_t pc0). rewrite map_nth. reflexivity. }
    rewrite Et. ring. }
  rewrite Key. rewrite <- (matmul_assoc n k k k) by auto. rewrite Hid. apply (matmul_identity_r n); auto.
Qed.
