(** ppdire: the scores and loadings decompose the scaled data *)
From Coq Require Import String Reals List Arith ZArith Bool Lia Lra.
Import List. Import ListNotations.
From Verif Require Import Num Err Vec VecR OrdR L_Mat L_Lin L_Matmul L_Deflate L_Stats M_Utils M_Preproc M_Robcent L_Scaling L_Scaling2 M_Dicomo M_Ipopt M_Ppdire
  S_Stats S_Regress S_Sudire S_Ppdire S_Ppdire2 S_Decomp L_Snipls2 L_SdrMat L_Pp L_Pp2 L_Pp3 L_Pp4 L_Pp6 L_Pp8 L_Decomp.
Open Scope R_scope.

Lemma cell_of_cols : forall {B} q (g : B -> list R) (cs : list B) (c0 : B) i a, (i < q)%nat -> (a < length cs)%nat -> cell (of_cols q (map g cs)) i a = nth i (g (nth a cs c0)) 0.
Proof.
  intros B q g cs c0 i a Hi Ha. change (cell ?M i a) with (mget M i a). rewrite mget_of_cols_R by (rewrite ?map_length; auto).
  rewrite (nth_indep _ _ (g c0)) by (rewrite map_length; exact Ha). rewrite map_nth. reflexivity.
Qed.

Lemma decomp_run : forall (env : pp_env R) prm d X f prm' d' m n p, is_matrix n p X -> (2 <= n)%nat -> direct_fit prm n p -> pp_init prm = Ok prm ->
  pp_fit env prm d X f = (prm', d', Ok m) -> (0 < pp_ncomp prm')%nat -> nonzero_cols (pm_T m) (pp_ncomp prm') ->
  exists Z cs, scaled_by n p X (pm_loc m) (pm_sca m) Z /\ wf n p Z /\ length cs = pp_ncomp prm' /\ is_chain p Z (map todc cs) /\
    pm_T m = of_cols n (map g_t cs) /\ pm_P m = of_cols p (map g_p cs) /\ pm_W m = of_cols p (map g_dir cs).
Proof.
  intros env prm d X f prm' d' m n p HX Hn2 Hd Hinit E Hh Hz.
  destruct (plain_run _ _ _ _ _ _ _ _ _ _ HX Hd E Hh) as (Hn & Hp0 & Ep & most & s & mX & sX & Xs & yi & cs & yc & Rt & ym & Hix & Hsn & Esc & HXs & Ey & _ & Hl & Hg & Hmc & HR & -> & Hym).
  destruct (with_h_fields prm (f_h f)) as (W1 & W2 & W3 & W4 & W5 & W6 & W7 & W8 & W9 & W10 & W11). rewrite <- Ep in *.
  pose proof (init_centre _ Hinit) as Hcc. rewrite <- W4 in Hcc.
  exists Xs, cs. cbn [pm_loc pm_sca pm_T pm_P pm_W] in *. split.
  { split; [exact HXs|]. intros i j Hi Hj.
    assert (Hlm : length mX = p /\ length sX = p /\ scale_data X mX sX = Ok Xs).
    { unfold st_scale in Esc. destruct (pp_center_data prm').
      - exact (scaled_lengths _ _ _ _ n p X _ _ _ HX Hn2 Hcc (scale_name_plain _ _ Hsn) Esc).
      - injection Esc as <- <- <-. split; [apply repeat_length|]. split; [apply repeat_length|]. apply (scale_data_id n); auto. }
    destruct Hlm as (Hlm & Hls & Hsd). destruct (scale_data_cells n p X mX sX HX Hn Hp0 Hlm Hls) as (Xs' & Es' & Hw & Hc). rewrite Hsd in Es'. apply Ok_inj in Es'. subst Xs'.
    specialize (Hc i j Hi Hj). change (cell Xs i j) with (mget Xs i j). change (cell X i j) with (mget X i j). rewrite Hc. unfold standardised.
    split; intros Hz0; destruct (Req_EM_T (nth j sX 0) 0); try contradiction; [unfold Rdiv; rewrite Rinv_1; ring|reflexivity]. }
  split; [exact HXs|]. split; [exact Hl|]. split; [|repeat split]. rewrite <- Hl in Hz. exact (run_chain _ _ _ _ _ _ _ _ _ Hg Hz).
Qed.

Section Run.
  Variables (n p : nat) (Z : list (list R)) (cs : list (pcomp R)).
  Hypothesis Hn : (0 < n)%nat.
  Hypothesis HZ : wf n p Z.
  Hypothesis Hc : is_chain p Z (map todc cs).
  Let T := of_cols n (map g_t cs).
  Let P := of_cols p (map g_p cs).
  Let h := length cs.

  Lemma dlen : forall a, (a < h)%nat -> length (g_t (nth a cs pc0)) = n /\ length (g_p (nth a cs pc0)) = p.
  Proof.
    intros a Ha. destruct (chain_wf n p Hn _ Z HZ Hc) as [HF _]. rewrite Forall_forall in HF. destruct (HF (todc (nth a cs pc0))) as (_ & H2 & H3); [|split; assumption].
    apply in_map, nth_In. exact Ha.
  Qed.
  Lemma product_sumn : forall i j, (i < n)%nat -> (j < p)%nat ->
    product h T P i j = sumn (length (map todc cs)) (fun a => nth i (d_t (nth a (map todc cs) dc0)) 0 * nth j (d_q (nth a (map todc cs) dc0)) 0).
  Proof.
    intros i j Hi Hj. unfold product. rewrite sum_to_sumn, map_length. apply sumn_ext. intros a Ha. rewrite nth_todc. unfold T, P.
    rewrite !(cell_of_cols _ _ _ pc0) by auto. reflexivity.
  Qed.
  Lemma left_cell : forall i j, (i < n)%nat -> (j < p)%nat -> cell Z i j - product h T P i j = mget (final Z (map todc cs)) i j.
  Proof. intros i j Hi Hj. rewrite (final_cell n p Hn) by auto. rewrite product_sumn by auto. reflexivity. Qed.
  Lemma misfit_fro : misfit n p h Z T P = fro n p (final Z (map todc cs)).
  Proof. unfold misfit, fro. rewrite sum_to_sumn. apply sumn_ext. intros i Hi. rewrite sum_to_sumn. apply sumn_ext. intros j Hj. rewrite left_cell by auto. reflexivity. Qed.
  Lemma left_orth : forall a j, (a < h)%nat -> (j < p)%nat -> sum_to n (fun i => cell T i a * (cell Z i j - product h T P i j)) = 0.
  Proof.
    intros a j Ha Hj. rewrite sum_to_sumn. refine (eq_trans _ (final_col n p Hn (map todc cs) Z a j HZ Hc _ Hj)); [|rewrite map_length; exact Ha].
    apply sumn_ext. intros i Hi. rewrite left_cell by auto. rewrite nth_todc. unfold T. rewrite (cell_of_cols _ _ _ pc0) by auto. reflexivity.
  Qed.
  Lemma sumn_list : forall {B} (g : B -> R) (l : list B) (b0 : B), vsum (map g l) = sumn (length l) (fun a => g (nth a l b0)).
  Proof.
    intros B g l b0. induction l as [|b l IH]; [reflexivity|]. cbn [map length]. rewrite (sumn_S_l (length l)). cbn [nth].
    rewrite <- IH. reflexivity.
  Qed.
  Lemma left_pyth : sum_to n (fun i => sum_to p (fun j => cell Z i j * cell Z i j)) = sum_to h (fun a => sqlen (column a T) * sqlen (column a P)) + misfit n p h Z T P.
  Proof.
    change (sum_to n (fun i => sum_to p (fun j => cell Z i j * cell Z i j))) with (fro n p Z). rewrite (fro_chain n p Hn _ Z HZ Hc), misfit_fro, Rplus_comm. f_equal.
    rewrite (sumn_list _ (map todc cs) dc0), map_length. change (sum_to ?a ?b) with (sumn a b). apply sumn_ext. intros a Ha. rewrite nth_todc. destruct (dlen a Ha) as [Ht Hp].
    unfold T, P. rewrite T_col by auto. rewrite !sqlen_dot. f_equal.
    assert (E : column a (of_cols p (map g_p cs)) = g_p (nth a cs pc0)).
    { rewrite <- (map_nth g_p cs pc0 a). apply (col_of_cols p (map g_p cs) a); [rewrite map_length; auto|]. change (@nil R) with (g_p pc0). rewrite map_nth. exact Hp. }
    rewrite E. reflexivity.
  Qed.
  Lemma left_least : forall Q, misfit n p h Z T P <= misfit n p h Z T Q.
  Proof.
    intros Q. rewrite misfit_fro. eapply Rle_trans; [apply (final_least n p Hn (map todc cs) Z (fun j a => cell Q j a) HZ Hc)|].
    right. unfold misfit. apply sumn_ext. intros i Hi. apply sumn_ext. intros j Hj.
    assert (E : sumn (length (map todc cs)) (fun a => nth i (d_t (nth a (map todc cs) dc0)) 0 * cell Q j a) = product h T Q i j).
    { unfold product. rewrite map_length. apply sumn_ext. intros a Ha. rewrite nth_todc. unfold T. rewrite (cell_of_cols _ _ _ pc0) by auto. reflexivity. }
    rewrite E. reflexivity.
  Qed.
  Lemma left_none : h = p -> forall i j, (i < n)%nat -> (j < p)%nat -> cell Z i j = product h T P i j.
  Proof.
    intros Hhp i j Hi Hj. apply Rminus_diag_uniq. rewrite left_cell by auto. apply (final_zero n p Hn); auto. rewrite map_length. exact Hhp.
  Qed.
End Run.

Lemma C178_l : forall (env : pp_env R) prm d X f prm' d' m n p, is_matrix n p X -> (2 <= n)%nat -> direct_fit prm n p -> pp_init prm = Ok prm ->
  pp_fit env prm d X f = (prm', d', Ok m) -> (0 < pp_ncomp prm')%nat -> nonzero_cols (pm_T m) (pp_ncomp prm') ->
  let h := pp_ncomp prm' in let T := pm_T m in let P := pm_P m in
  exists Z, scaled_by n p X (pm_loc m) (pm_sca m) Z /\
    (forall a j, (a < h)%nat -> (j < p)%nat -> sum_to n (fun i => cell T i a * (cell Z i j - product h T P i j)) = 0) /\
    sum_to n (fun i => sum_to p (fun j => cell Z i j * cell Z i j)) = sum_to h (fun a => sqlen (column a T) * sqlen (column a P)) + misfit n p h Z T P /\
    (forall Q, misfit n p h Z T P <= misfit n p h Z T Q).
Proof.
  intros env prm d X f prm' d' m n p HX Hn2 Hd Hinit E Hh Hz h T P.
  destruct (decomp_run _ _ _ _ _ _ _ _ _ _ HX Hn2 Hd Hinit E Hh Hz) as (Z & cs & HS & HZ & Hl & Hc & HT & HP & _).
  exists Z. split; [exact HS|]. unfold h, T, P. rewrite HT, HP, <- Hl.
  split; [intros; apply left_orth; auto; lia|]. split; [apply left_pyth; auto; lia|intros; apply left_least; auto; lia].
Qed.
Lemma C178_exact_l : forall (env : pp_env R) prm d X f prm' d' m n p, is_matrix n p X -> (2 <= n)%nat -> direct_fit prm n p -> pp_init prm = Ok prm ->
  pp_fit env prm d X f = (prm', d', Ok m) -> (0 < p)%nat -> pp_ncomp prm' = p -> nonzero_cols (pm_T m) p ->
  forall i j, (i < n)%nat -> (j < p)%nat ->
    cell X i j = nth j (pm_loc m) 0 + (if Req_EM_T (nth j (pm_sca m) 0) 0 then 1 else nth j (pm_sca m) 0) * product p (pm_T m) (pm_P m) i j.
Proof.
  intros env prm d X f prm' d' m n p HX Hn2 Hd Hinit E Hp Hh Hz i j Hi Hj.
  destruct (decomp_run _ _ _ _ _ _ _ _ _ _ HX Hn2 Hd Hinit E ltac:(lia) ltac:(rewrite Hh; exact Hz)) as (Z & cs & [_ HS] & HZ & Hl & Hc & HT & HP & _).
  rewrite HT, HP. assert (Hhp : length cs = p) by lia. pose proof (left_none n p Z cs ltac:(lia) HZ Hc Hhp i j Hi Hj) as HQ. rewrite Hhp in HQ. rewrite <- HQ.
  destruct (HS i j Hi Hj) as [H1 H2]. destruct (Req_EM_T (nth j (pm_sca m) 0) 0) as [Hs|Hs]; [rewrite (H1 Hs); ring|rewrite (H2 Hs); field; exact Hs].
Qed.
