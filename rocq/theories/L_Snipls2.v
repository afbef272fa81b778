(** Lemmas for snipls, continued: from the loop to the fitted attributes. *)

From Coq Require Import Reals List Arith ZArith Bool Lia Lra Permutation.
Import ListNotations.
From Verif Require Import Num Err Vec VecR OrdR L_Mat S_Stats S_Regress L_Stats M_Utils M_Preproc M_Robcent M_Plot M_Snipls
  L_Lin L_Matmul L_Deflate L_Scaling L_Scaling2 L_Preproc L_Msupport L_Snipls.
Open Scope R_scope.

Definition nonzero_scores (f : snipls_model R) : Prop :=
  forall a, (a < length (sn_C f))%nat -> sqlen (column a (sn_T f)) <> 0.

Lemma as_column_inj : forall u v : list R, as_column u = as_column v -> u = v.
Proof. intros u v E. rewrite <- (col_as_column u), <- (col_as_column v), E. reflexivity. Qed.
Lemma nth_todc : forall i l, nth i (map todc l) dc0 = todc (nth i l sc0).
Proof. intros i l. change dc0 with (todc sc0). apply map_nth. Qed.
Lemma map_firstn : forall {A B} (g : A -> B) l i, map g (firstn i l) = firstn i (map g l).
Proof. intros A B g l; induction l as [|x l IH]; intros [|i]; cbn; auto. f_equal; auto. Qed.

Lemma is_chain_firstn : forall p i l X, is_chain p X l -> is_chain p X (firstn i l).
Proof.
  intros p i l; revert i; induction l as [|c l IH]; intros [|i] X H; cbn in *; auto. destruct H as (A1 & A2 & A3 & A4 & A5). repeat split; auto.
Qed.
Lemma ycoefs_firstn : forall i l y, ycoefs y (firstn i l) = firstn i (ycoefs y l).
Proof. intros i l; revert i; induction l as [|c l IH]; intros [|i] y; cbn; auto. f_equal; auto. Qed.
Lemma sumn_S_l : forall m f, sumn (S m) f = f 0%nat + sumn m (fun i => f (S i)).
Proof. intros m f; induction m as [|m IH]; [rewrite sumn_S, !sumn_0; ring|]. rewrite sumn_S, IH, (sumn_S m). ring. Qed.
Lemma nth_yfinal : forall n p l y a, (0 < n)%nat -> length y = n -> Forall (comp_wf n p) l -> (a < n)%nat ->
  nth a (yfinal y l) 0 = nth a y 0 - sumn (length l) (fun i => nth i (ycoefs y l) 0 * nth a (d_t (nth i l dc0)) 0).
Proof.
  intros n p l; induction l as [|c l IH]; intros y a Hn Hy HF Ha; [cbn [yfinal length]; rewrite sumn_0; ring|].
  inversion HF as [|? ? (H1 & H2 & H3) HF']; subst. cbn [yfinal ycoefs length].
  rewrite (IH (ystep y (d_t c)) a Hn (ystep_length (length y) Hn y (d_t c) eq_refl H2) HF' Ha).
  rewrite sumn_S_l. cbn [nth]. unfold ystep at 1. rewrite nth_vsub by (rewrite ?vscale_length; lia). rewrite nth_vscale. ring.
Qed.
Lemma sum_of_seq : forall m (g : nat -> R), sum_of (map g (seq 0 m)) = sumn m g.
Proof. intros; reflexivity. Qed.

Lemma final_nul : forall n p l X c, (0 < n)%nat -> wf n p X -> is_chain p X l -> In c l -> nul n (final X l) (d_w c).
Proof.
  intros n p l; induction l as [|c0 l IH]; intros X c Hn HX Hc Hin; [destruct Hin|].
  destruct (step_wf n p Hn X c0 l HX Hc) as [(H1 & _ & _) Hd]. pose proof (nul_own n p Hn X c0 l HX Hc) as Ho.
  destruct Hc as (_ & _ & _ & _ & Hc). cbn [final]. destruct Hin as [<-|Hin]; [|apply IH; auto].
  apply (nul_chain n p Hn l _ (d_w c0) Hd Hc H1 Ho).
Qed.
(** anything orthogonal to all X w_j is orthogonal to all scores *)
Lemma span_scores : forall n p l X u, (0 < n)%nat -> wf n p X -> is_chain p X l -> length u = n ->
  (forall c, In c l -> dot u (matvec X (d_w c)) = 0) -> forall c, In c l -> dot u (d_t c) = 0.
Proof.
  intros n p l; induction l as [|c0 l IH]; intros X u Hn HX Hc Hu H0 c Hin; [destruct Hin|].
  destruct (step_wf n p Hn X c0 l HX Hc) as [(H1 & H2 & H3) Hd].
  assert (Et : dot u (d_t c0) = 0) by (destruct Hc as (_ & -> & _); apply H0; left; auto).
  destruct Hin as [<-|Hin]; auto.
  assert (Hc' := Hc). destruct Hc as (_ & _ & _ & _ & Hc). apply (IH (deflated X c0)); auto.
  intros c' Hin'. destruct (chain_wf n p Hn l _ Hd Hc) as [HF _]. rewrite Forall_forall in HF. destruct (HF c' Hin') as (L1 & _ & _).
  unfold deflated. rewrite (matvec_deflate n p) by auto.
  rewrite (dot_comm u (vsub _ _)), dot_vsub_l by (rewrite vscale_length, matvec_length, (wf_length _ _ _ HX); lia).
  rewrite dot_vscale_l, (dot_comm (matvec X (d_w c')) u), (dot_comm (d_t c0) u), Et, H0 by (right; auto). ring.
Qed.
Lemma dot_zeros_l : forall m (v : list R), dot (vzeros m) v = 0.
Proof. unfold vzeros. induction m as [|m IH]; intros [|x v]; auto. cbn [repeat]. rewrite dot_cons, IH. rnum. ring. Qed.
Lemma nth_zeros : forall m j, nth j (vzeros (A:=R) m) 0 = 0.
Proof. unfold vzeros. induction m as [|m IH]; intros [|j]; cbn; auto. Qed.
Lemma firstn_In : forall {A} i (l : list A) x, In x (firstn i l) -> In x l.
Proof. intros A i l x H. rewrite <- (firstn_skipn i l). apply in_or_app; auto. Qed.
Lemma nth_firstn_lt : forall {A} (l : list A) i b d, (b < i)%nat -> nth b (firstn i l) d = nth b l d.
Proof. intros A l; induction l as [|x l IH]; intros [|i] [|b] d Hb; cbn; auto; try lia. apply IH; lia. Qed.
Lemma last_nth : forall {A} (l : list A) d, last l d = nth (length l - 1) l d.
Proof.
  intros A l d; induction l as [|x l IH]; auto. destruct l as [|x' l]; auto. change (last (x :: x' :: l) d) with (last (x' :: l) d).
  rewrite IH. cbn [length]. replace (S (S (length l)) - 1)%nat with (S (length (x' :: l) - 1))%nat by (cbn [length]; lia). reflexivity.
Qed.

Section Fit2.
  Variables (env : prep_env R) (inv : list (list R) -> res (list (list R))) (eta : R) (k : nat) (c : centre_opt R) (s : scale_opt R).
  Variables (n p : nat) (X : list (list R)) (y : list R) (f : snipls_model R) (X0 : list (list R)) (y0 : list R).
  Hypothesis HX : is_matrix n p X.
  Hypothesis Hn : (2 <= n)%nat.
  Hypothesis Hp : (1 <= p)%nat.
  Hypothesis Hy : length y = n.
  Hypothesis Hfit : snipls_fit env inv eta k c s X y = Ok f.
  Hypothesis HX0 : scaled_by env c s X X0.
  Hypothesis Hy0 : scaled_by env c s (as_column y) (as_column y0).

  Let l := comps_of eta k X0 y0.
  Let ssx := vsum (map nansum (map (map nsqr) X0)).
  Let ssy := nansum (map nsqr y0).

  Lemma Hn0 : (0 < n)%nat. Proof. lia. Qed.
  Lemma WX0 : wf n p X0. Proof. apply (scaled_wf env c s n p X); auto. Qed.
  Lemma Wy0 : length y0 = n.
  Proof.
    assert (W : wf n 1 (as_column y0)) by (apply (scaled_wf env c s n 1 (as_column y)); auto; rewrite <- Hy; apply as_column_wf).
    apply wf_length in W. unfold as_column in W. rewrite map_length in W. exact W.
  Qed.

  (** the fitted attributes in terms of the loop *)
  Lemma fit_attrs :
    match l with
    | [] => sn_coef_scaled f = vzeros p /\ sn_R f = of_cols p [vzeros p] /\ sn_T f = of_cols n (repeat (vzeros n) k)
    | _ => exists PWi Gi, inv (matmul (transpose (sn_P f)) (sn_W f)) = Ok PWi /\
             inv (matmul (matmul (transpose (sn_W f)) (matmul (transpose X0) X0)) (sn_W f)) = Ok Gi /\
             sn_coef_scaled f = matvec (sn_W f) (matvec Gi (matvec (transpose (sn_W f)) (tmatvec X0 y0))) /\
             sn_R f = matmul (sn_W f) PWi /\ sn_T f = of_cols n (map c_t l)
    end /\
    length (sn_xsca f) = p /\
    sn_p f = p /\ sn_W f = of_cols p (map c_w l) /\ sn_P f = of_cols p (map c_p l) /\ sn_C f = map c_c l /\
    sn_coef f = map2 (fun sx b => (nth 0 (sn_ysca f) 0 / sx) * b) (sn_xsca f) (sn_coef_scaled f) /\
    sn_intercept f = snipls_intercept c (vsub y (matvec X (sn_coef f))) /\
    sn_fitted f = map (fun v => v + sn_intercept f) (matvec X (sn_coef f)) /\
    sn_resid f = vsub y (sn_fitted f) /\
    sn_xev f = map c_xev l /\ sn_yev f = map c_yev l /\
    sn_retained f = map c_good l /\ sn_colret f = (match l with [] => None | _ => Some (last (map c_good l) []) end) /\
    scaled env c s X = Ok (sn_xloc f, sn_xsca f, X0) /\ scaled env c s (as_column y) = Ok (sn_yloc f, sn_ysca f, as_column y0).
  Proof.
    destruct (fit_inv env inv eta k c s n p X y f HX Hn Hp Hy Hfit) as (X0' & y0' & B & Rw & T & S1 & S2 & _ & _ & H).
    assert (X0' = X0) by (apply (scaled_by_fun env c s X); auto). assert (y0' = y0) by (apply as_column_inj, (scaled_by_fun env c s (as_column y)); auto).
    subst X0' y0'. fold l in H. cbv zeta in H. destruct H as (Hm & Hs & H1 & H2 & H3 & H4 & H5 & H6 & H7 & H8 & H9 & H10 & H11 & H12 & H13 & H14 & H15 & (Z1 & H16) & (Z2 & H17)).
    split.
    { rewrite <- H2, <- H3, <- H5, <- H6, <- H7 in Hm. exact Hm. }
    rewrite <- H7 in H8.
    repeat (split; [assumption|]). split.
    - rewrite H16. f_equal. f_equal. apply (scaled_by_fun env c s X); auto. eapply scaled_inv; eauto.
    - rewrite H17. f_equal. f_equal. apply (scaled_by_fun env c s (as_column y)); auto. eapply scaled_inv; eauto.
  Qed.
  Lemma l_length : length l = k \/ (l = [] /\ (0 < k)%nat).
  Proof. destruct (loop_length false eta ssx ssy n p Hn0 Hp k X0 y0 [] WX0 Wy0) as [H|(H & _ & Hk)]; auto. Qed.
  Lemma l_facts : forall i, (i < length l)%nat -> wf n p (before X0 l i) /\ length (ybefore y0 l i) = n /\
    step_facts eta ssx ssy (before X0 l i) (ybefore y0 l i) (gbefore [] l i) (nth i l sc0).
  Proof. apply (loop_facts false eta ssx ssy n p Hn0 Hp k X0 y0 []); [apply WX0|apply Wy0]. Qed.
  Lemma l_lengths : forall i, (i < length l)%nat -> length (c_w (nth i l sc0)) = p /\ length (c_t (nth i l sc0)) = n /\
    length (c_q (nth i l sc0)) = p /\ length (c_p (nth i l sc0)) = p.
  Proof.
    intros i Hi. destruct (l_facts i Hi) as (A1 & A2 & A3).
    destruct (step_lengths eta ssx ssy n p _ _ _ _ A1 Hn0 A2 A3) as (L1 & L2 & L3 & L4 & _). auto.
  Qed.
  Lemma C_length : length (sn_C f) = length l.
  Proof. destruct fit_attrs as (_ & _ & _ & _ & _ & E & _). rewrite E, map_length. reflexivity. Qed.
  Lemma ret_length : length (sn_retained f) = length l.
  Proof. destruct fit_attrs as (_ & _ & _ & _ & _ & _ & _ & _ & _ & _ & _ & _ & E & _). rewrite E, map_length. reflexivity. Qed.
  Lemma nth_ret : forall i, nth i (sn_retained f) [] = c_good (nth i l sc0).
  Proof. intros i. destruct fit_attrs as (_ & _ & _ & _ & _ & _ & _ & _ & _ & _ & _ & _ & E & _). rewrite E. apply (map_nth c_good l sc0). Qed.
  Lemma nth_C : forall i, nth i (sn_C f) 0 = c_c (nth i l sc0).
  Proof. intros i. destruct fit_attrs as (_ & _ & _ & _ & _ & E & _). rewrite E. apply (map_nth c_c l sc0). Qed.
  Lemma T_eq : l <> [] -> sn_T f = of_cols n (map c_t l).
  Proof. intros Hl. destruct fit_attrs as (E & _). destruct l; [congruence|]. destruct E as (PWi & Gi & _ & _ & _ & _ & E). exact E. Qed.
  Lemma T_col : forall a, (a < length l)%nat -> column a (sn_T f) = c_t (nth a l sc0).
  Proof.
    intros a Ha. rewrite T_eq by (destruct l; [cbn in Ha; lia|discriminate]). change (column a) with (@col R Num_R a).
    rewrite col_of_cols; rewrite ?map_length; auto.
    - apply (map_nth c_t l sc0).
    - change [] with (c_t sc0) at 1. rewrite map_nth. apply l_lengths; auto.
  Qed.
  Lemma T_cell : forall a i, (a < length l)%nat -> (i < n)%nat -> cell (sn_T f) i a = nth i (c_t (nth a l sc0)) 0.
  Proof.
    intros a i Ha Hi. rewrite <- T_col by auto. symmetry. unfold column.
    assert (HT : wf n (length l) (sn_T f)).
    { rewrite T_eq by (destruct l; [cbn in Ha; lia|discriminate]). rewrite <- (map_length c_t l). apply wf_of_cols. }
    rewrite (nth_map_lt _ _ _ []) by (rewrite (wf_length _ _ _ HT); auto). reflexivity.
  Qed.
  Lemma W_cell : forall a j, (a < length l)%nat -> (j < p)%nat -> cell (sn_W f) j a = nth j (c_w (nth a l sc0)) 0.
  Proof.
    intros a j Ha Hj. destruct fit_attrs as (_ & _ & _ & E & _). rewrite E, cell_mget.
    rewrite mget_of_cols_R by (rewrite ?map_length; auto). change [] with (c_w sc0) at 1. rewrite map_nth. reflexivity.
  Qed.
  Lemma P_cell : forall a j, (a < length l)%nat -> (j < p)%nat -> cell (sn_P f) j a = nth j (c_p (nth a l sc0)) 0.
  Proof.
    intros a j Ha Hj. destruct fit_attrs as (_ & _ & _ & _ & E & _). rewrite E, cell_mget.
    rewrite mget_of_cols_R by (rewrite ?map_length; auto). change [] with (c_p sc0) at 1. rewrite map_nth. reflexivity.
  Qed.

  (* ---- C33 ---- *)
  Lemma nested_l : forall a j, (S a < length (sn_retained f))%nat -> In j (nth a (sn_retained f) []) -> In j (nth (S a) (sn_retained f) []).
  Proof.
    intros a j Ha Hin. rewrite ret_length in Ha. rewrite !nth_ret in *. destruct (l_facts (S a) Ha) as (_ & _ & (Hg & _)).
    apply Hg. left. exact Hin.
  Qed.
  Lemma nested_le : forall a b j, (a <= b < length l)%nat -> In j (nth a (sn_retained f) []) -> In j (nth b (sn_retained f) []).
  Proof.
    intros a b j [Hab Hb] Hin. induction Hab as [|b Hab IH]; auto. apply nested_l; [rewrite ret_length; auto|]. apply IH; lia.
  Qed.
  Lemma W_zero : forall a j, (a < length l)%nat -> (j < p)%nat -> ~ In j (nth a (sn_retained f) []) -> cell (sn_W f) j a = 0.
  Proof.
    intros a j Ha Hj Hni. rewrite W_cell by auto. destruct (l_facts a Ha) as (_ & _ & (_ & Ew & _)). rewrite Ew. apply keep_out.
    rewrite <- nth_ret. exact Hni.
  Qed.
  Lemma P_zero : forall a j, (a < length l)%nat -> (j < p)%nat -> ~ In j (nth a (sn_retained f) []) -> cell (sn_P f) j a = 0.
  Proof.
    intros a j Ha Hj Hni. rewrite P_cell by auto. destruct (l_facts a Ha) as (_ & _ & (_ & _ & _ & _ & Ep & _)). rewrite Ep. apply keep_out.
    rewrite <- nth_ret. exact Hni.
  Qed.
  Lemma colret_eq : sn_colret f = if (length l =? 0)%nat then None else Some (nth (length l - 1) (sn_retained f) []).
  Proof.
    destruct fit_attrs as (_ & _ & _ & _ & _ & _ & _ & _ & _ & _ & _ & _ & Er & E & _). rewrite E.
    destruct l as [|c0 l'] eqn:El; [reflexivity|]. cbn [Nat.eqb length]. f_equal. rewrite last_nth, map_length. rewrite Er. reflexivity.
  Qed.
  Definition retained_last (j : nat) : Prop := (0 < length l)%nat /\ In j (nth (length l - 1) (sn_retained f) []).
  Lemma coefs_zero : forall j, (j < p)%nat -> ~ retained_last j -> nth j (sn_coef_scaled f) 0 = 0.
  Proof.
    intros j Hj Hni. destruct fit_attrs as (E & _ & _ & EW & _).
    assert (HW : wf p (length l) (sn_W f)) by (rewrite EW, <- (map_length c_w l); apply wf_of_cols).
    assert (Hz : forall z, nth j (matvec (sn_W f) z) 0 = 0).
    { intros z. rewrite nth_matvec by (rewrite (wf_length _ _ _ HW); auto).
      replace (nth j (sn_W f) []) with (vzeros (A:=R) (length l)); [apply dot_zeros_l|].
      apply (nth_ext _ _ 0 0).
      - unfold vzeros. rewrite repeat_length, (wf_nth_row p (length l)); auto.
      - intros a Ha. unfold vzeros in Ha. rewrite repeat_length in Ha. rewrite nth_zeros. symmetry. apply W_zero; auto.
        intros Hin. apply Hni. split; [lia|]. apply (nested_le a); auto. lia. }
    destruct l as [|c0 l'] eqn:El; [destruct E as (-> & _); apply nth_zeros|].
    destruct E as (PWi & Gi & _ & _ & -> & _). apply Hz.
  Qed.
  Lemma coef_len : length (sn_coef_scaled f) = p.
  Proof.
    destruct fit_attrs as (E & _ & _ & EW & _). destruct l as [|c0 l'] eqn:El; [destruct E as (-> & _); apply repeat_length|].
    destruct E as (PWi & Gi & _ & _ & -> & _). rewrite matvec_length, EW. apply (wf_length _ _ _ (wf_of_cols p _)).
  Qed.
  Lemma coef_nth : forall j, (j < p)%nat -> nth j (sn_coef f) 0 = nth 0 (sn_ysca f) 0 / nth j (sn_xsca f) 0 * nth j (sn_coef_scaled f) 0.
  Proof.
    intros j Hj. destruct fit_attrs as (_ & Hs & _ & _ & _ & _ & E & _). rewrite E.
    rewrite (nth_map2 _ _ _ _ 0 0) by (rewrite ?coef_len; auto; lia). reflexivity.
  Qed.
  Lemma coef_length : length (sn_coef f) = p.
  Proof. destruct fit_attrs as (_ & Hs & _ & _ & _ & _ & E & _). rewrite E, map2_length, Hs, coef_len by auto. lia. Qed.

  (* ---- C35 ---- *)
  Lemma predict_train : snipls_predict f (A2 X) = Ok (sn_fitted f).
  Proof.
    destruct fit_attrs as (_ & _ & Ep & _ & _ & _ & _ & _ & Ef & _). unfold snipls_predict, predict_check_input.
    rewrite (wf_ncols n p) by (auto using Hn0). rewrite Ep, Nat.eqb_refl. cbn [negb]. rewrite Ef. reflexivity.
  Qed.
  Lemma fitted_length : length (sn_fitted f) = n.
  Proof. destruct fit_attrs as (_ & _ & Ep & _ & _ & _ & _ & _ & Ef & _). rewrite Ef, map_length, matvec_length. apply (wf_length _ _ _ HX). Qed.
  Lemma resid_length : length (sn_resid f) = n.
  Proof. destruct fit_attrs as (_ & _ & Ep & _ & _ & _ & _ & _ & Ef & Er & _). rewrite Er, vsub_length; rewrite ?fitted_length; auto. Qed.
  Lemma resid_nth : forall i, (i < n)%nat -> nth i (sn_resid f) 0 = nth i y 0 - nth i (sn_fitted f) 0.
  Proof.
    intros i Hi. destruct fit_attrs as (_ & _ & Ep & _ & _ & _ & _ & _ & Ef & Er & _). rewrite Er. apply nth_vsub; rewrite ?fitted_length; lia.
  Qed.
  Lemma resid_shift : sn_resid f = map (fun r => r - sn_intercept f) (vsub y (matvec X (sn_coef f))).
  Proof.
    destruct fit_attrs as (_ & _ & Ep & _ & _ & _ & _ & _ & Ef & Er & _).
    assert (Hm : length (matvec X (sn_coef f)) = n) by (rewrite matvec_length; apply (wf_length _ _ _ HX)).
    apply (nth_ext _ _ 0 0); [rewrite resid_length, map_length, vsub_length; lia|].
    intros i Hi. rewrite resid_length in Hi. rewrite resid_nth by auto. rewrite Ef.
    rewrite !(nth_map_lt _ _ _ 0) by (rewrite ?vsub_length; lia). rewrite nth_vsub by lia. ring.
  Qed.
  Lemma resid_centred : (c = CMean -> sum_of (sn_resid f) = 0) /\
    (c <> CMean -> c <> CNone -> is_median (sn_resid f) 0).
  Proof.
    destruct fit_attrs as (_ & _ & _ & _ & _ & _ & _ & Eb & _). rewrite resid_shift.
    set (e := vsub y (matvec X (sn_coef f))) in *.
    assert (Hle : length e = n) by (unfold e; rewrite vsub_length; auto; rewrite matvec_length, (wf_length _ _ _ HX); auto).
    assert (Hne : e <> []) by (destruct e; [cbn in Hle; lia|discriminate]).
    split.
    - intros ->. cbn [snipls_intercept] in Eb. unfold nanmean in Eb. rewrite nonnan_R in Eb.
      rewrite Eb. change sum_of with (@vsum R Num_R). rewrite vsum_map_sumn with (d := 0). rewrite sumn_minus, sumn_const, <- vsum_sumn.
      unfold vmean. rnum. rewrite nnat_R. field. apply not_0_INR. lia.
    - intros H1 H2. assert (Eb' : sn_intercept f = vmedian e).
      { rewrite Eb. unfold snipls_intercept, nanmedian. destruct c; try congruence; rewrite nonnan_R; reflexivity. }
      rewrite Eb'. apply is_median_iff; [destruct e; [congruence|discriminate]|].
      rewrite (map_ext (fun r => r - vmedian e) (fun r => 1 * r + - vmedian e)) by (intros; ring).
      rewrite vmedian_affine by auto. ring.
  Qed.

  (* ---- C36 helper ---- *)
  Lemma scaled_scale_data : scale_data X (sn_xloc f) (sn_xsca f) = Ok X0.
  Proof.
    destruct fit_attrs as (_ & _ & _ & _ & _ & _ & _ & _ & _ & _ & _ & _ & _ & _ & E & _).
    unfold scaled in E. change (@n0 R Num_R) with 0 in E.
    destruct (sc_fit_transform env (new_scaler c s 0) (A2 X)) as [st [Z|e]] eqn:Ef; [|discriminate].
    apply C01_fit_transform_l in Ef as (st1 & F1 & F2). apply fit_ok_inv in F1 as (m & v & _ & _ & _ & _ & ->).
    unfold sc_transform in F2. cbn [a_center a_scale a_col_loc a_col_sca] in F2. rewrite (check_input_id n p) in F2 by auto.
    destruct (scale_data X m v) as [Z'|] eqn:Es; [|discriminate]. injection F2 as <- <-. cbn [a_col_loc a_col_sca] in E.
    injection E as <- <- <-. exact Es.
  Qed.

  (* ---- C38 ---- *)
  Hypothesis Hinv : inverse_ok inv.
  Lemma inv_right : forall m M N, wf m m M -> (0 < m)%nat -> inv M = Ok N -> wf m m N /\ matmul M N = identity m.
  Proof.
    intros m M N HM Hm E. destruct (Hinv m M N HM E) as [HN Hd]. split; [exact HN|].
    apply (mat_ext m m); [apply (wf_matmul m m); auto|apply wf_identity|]. intros i j Hi Hj.
    rewrite (mget_matmul m m m) by auto. rewrite mget_identity by auto. exact (Hd i j Hi Hj).
  Qed.
  Lemma W_wf : wf p (length l) (sn_W f).
  Proof. destruct fit_attrs as (_ & _ & _ & -> & _). rewrite <- (map_length c_w l). apply wf_of_cols. Qed.
  Lemma W_span : in_span (sn_W f) (sn_coef_scaled f).
  Proof.
    destruct fit_attrs as (E & _ & _ & EW & _). pose proof W_wf as HW.
    destruct (Nat.eq_dec (length l) 0) as [Hl|Hl].
    - exists []. destruct l; [|discriminate]. destruct E as (-> & _ & _). rewrite EW. split.
      + unfold fitted_by, of_cols. rewrite map_map. unfold vzeros. rewrite <- (seq_length p 0) at 1. generalize (seq 0 p). intros q; induction q; cbn; auto. f_equal; auto.
      + intros r Hr. unfold of_cols in Hr. apply in_map_iff in Hr as (j & <- & _). reflexivity.
    - destruct l as [|c0 l'] eqn:El; [cbn in Hl; lia|]. rewrite <- El in *. destruct E as (PWi & Gi & _ & EG & -> & _).
      assert (HG : wf (length l) (length l) (matmul (matmul (transpose (sn_W f)) (matmul (transpose X0) X0)) (sn_W f))).
      { assert (HX' := WX0). apply (wf_matmul _ p); auto. apply (wf_matmul _ p); auto; [apply wf_cols; auto|]. apply (wf_matmul _ n); auto using Hn0. apply wf_cols; auto using Hn0. }
      destruct (inv_right _ _ _ HG ltac:(lia) EG) as [HGi _].
      eexists. split; [unfold fitted_by; apply map_ext; intros r; symmetry; apply inner_dot|].
      intros r Hr. rewrite matvec_length, (wf_length _ _ _ HGi). symmetry. apply (wf_row p (length l) (sn_W f)); auto.
  Qed.
  (** normal equations *)
  Lemma normal_eq : forall z, length z = length l -> (0 < length l)%nat ->
    dot (vsub y0 (matvec X0 (sn_coef_scaled f))) (matvec X0 (matvec (sn_W f) z)) = 0.
  Proof.
    intros z Hz Hl. destruct fit_attrs as (E & _ & _ & EW & _). pose proof W_wf as HW. pose proof WX0 as HX'. pose proof Hn0 as Hn'.
    destruct l as [|c0 l'] eqn:El; [cbn in Hl; lia|]. rewrite <- El in *. destruct E as (PWi & Gi & _ & EG & EB & _).
    assert (HWt : wf (length l) p (transpose (sn_W f))) by (apply wf_cols; auto).
    assert (HXt : wf p n (transpose X0)) by (apply wf_cols; auto).
    assert (HS : wf p p (matmul (transpose X0) X0)) by (apply (wf_matmul p n); auto).
    assert (HWS : wf (length l) p (matmul (transpose (sn_W f)) (matmul (transpose X0) X0))) by (apply (wf_matmul _ p); auto).
    assert (HG : wf (length l) (length l) (matmul (matmul (transpose (sn_W f)) (matmul (transpose X0) X0)) (sn_W f))) by (apply (wf_matmul _ p); auto).
    destruct (inv_right _ _ _ HG Hl EG) as [HGi Hid].
    set (v := matvec (transpose (sn_W f)) (tmatvec X0 y0)) in *.
    assert (Hv : length v = length l) by (unfold v; rewrite matvec_length; apply (wf_length _ _ _ HWt)).
    assert (Hg : length (matvec Gi v) = length l) by (rewrite matvec_length; apply (wf_length _ _ _ HGi)).
    pose proof coef_len as HB.
    assert (Hy0' := Wy0).
    (* W' X0' (y0 - X0 B) = v - G Gi v = 0 *)
    assert (Key : matvec (transpose (sn_W f)) (tmatvec X0 (matvec X0 (sn_coef_scaled f))) = v).
    { rewrite EB. rewrite (tmatvec_transpose X0).
      rewrite <- (matvec_matmul p n p (transpose X0) X0) by (first [assumption | rewrite !matvec_length; first [apply (wf_length _ _ _ HW)|apply (wf_length _ _ _ HX')]]).
      rewrite <- (matvec_matmul (length l) p p (transpose (sn_W f)) (matmul (transpose X0) X0)) by (first [assumption | rewrite !matvec_length; first [apply (wf_length _ _ _ HW)|apply (wf_length _ _ _ HX')]]).
      rewrite <- (matvec_matmul (length l) p (length l) _ (sn_W f)) by auto.
      rewrite <- (matvec_matmul (length l) (length l) (length l) _ Gi) by auto.
      rewrite Hid. apply matvec_identity; auto. }
    assert (Hr : length (vsub y0 (matvec X0 (sn_coef_scaled f))) = n) by (rewrite vsub_length; rewrite ?matvec_length, ?(wf_length _ _ _ HX'); lia).
    assert (HWz : length (matvec (sn_W f) z) = p) by (rewrite matvec_length; apply (wf_length _ _ _ HW)).
    rewrite <- (adjoint n p) by auto. rewrite <- (adjoint p (length l)) by (auto; apply (tmatvec_length n p); auto).
    replace (tmatvec (sn_W f) (tmatvec X0 (vsub y0 (matvec X0 (sn_coef_scaled f))))) with (vsub v v).
    - rewrite dot_vsub_l by auto. ring.
    - rewrite tmatvec_transpose. rewrite <- Key at 2. unfold v. rewrite <- (matvec_vsub (length l) p) by (auto; apply (tmatvec_length n p); auto).
      f_equal. rewrite !(tmatvec_transpose X0). rewrite <- (matvec_vsub p n); auto. rewrite matvec_length; apply (wf_length _ _ _ HX').
  Qed.
  (* ---- with non-zero scores the loop is a deflation chain ---- *)
  Hypothesis Hnz : nonzero_scores f.
  Let dl := map todc l.
  Lemma chain_l : is_chain p X0 dl /\ map c_c l = ycoefs y0 dl /\
    forall i, (i <= length l)%nat -> before X0 l i = final X0 (firstn i dl) /\ ybefore y0 l i = yfinal y0 (firstn i dl).
  Proof.
    destruct (loop_chain false eta ssx ssy n p Hn0 Hp k X0 y0 [] WX0 Wy0) as (A1 & A2 & A3).
    - intros c0 Hin. apply (In_nth _ _ sc0) in Hin as (a & Ha & <-).
      fold ssx ssy in Ha |- *. change (snipls_loop false eta ssx ssy k X0 y0 []) with l in *.
      specialize (Hnz a). rewrite C_length, T_col, sqlen_dot in Hnz by auto. auto.
    - split; [exact A1|]. split; [exact A2|]. intros i Hi. unfold dl. rewrite <- map_firstn. apply A3; auto.
  Qed.
  Lemma dl_length : length dl = length l. Proof. apply map_length. Qed.
  Lemma dl_wf : Forall (comp_wf n p) dl.
  Proof. destruct (chain_wf n p Hn0 dl X0 WX0 (proj1 chain_l)) as [H _]. exact H. Qed.
  Lemma dl_nth : forall i, nth i dl dc0 = todc (nth i l sc0). Proof. intros; apply nth_todc. Qed.

  Lemma scores_orth_l : forall a b, (a < k)%nat -> (b < k)%nat -> a <> b -> orthogonal (column a (sn_T f)) (column b (sn_T f)).
  Proof.
    intros a b Ha Hb Hab. unfold orthogonal. rewrite inner_dot. destruct l_length as [Hl|[Hl _]].
    - rewrite !T_col by lia. pose proof (scores_orth n p Hn0 dl X0 a b WX0 (proj1 chain_l)) as H. rewrite dl_length, !dl_nth in H. apply H; lia.
    - destruct fit_attrs as (E & _). rewrite Hl in E. destruct E as (_ & _ & ->).
      change (column a) with (@col R Num_R a). rewrite col_of_cols.
      + rewrite repeat_nth by auto. apply dot_zeros_l.
      + rewrite repeat_length; auto.
      + rewrite repeat_nth by auto. apply repeat_length.
  Qed.

  (** residuals *)
  Lemma resid_eq : forall i, (i <= length l)%nat -> partial_residual y0 (sn_T f) (sn_C f) i = ybefore y0 l i.
  Proof.
    intros i Hi. destruct chain_l as (HC & HYC & HB). destruct (HB i Hi) as [_ ->].
    assert (HF : Forall (comp_wf n p) (firstn i dl)) by (apply Forall_forall; intros d Hd; pose proof dl_wf as Hw; rewrite Forall_forall in Hw; apply Hw; eapply firstn_In; eauto).
    assert (Hlen : length (yfinal y0 (firstn i dl)) = n) by (apply (yfinal_length n p Hn0); auto; apply Wy0).
    apply (nth_ext _ _ 0 0).
    - unfold partial_residual. rewrite map_length, seq_length, Hlen. apply Wy0.
    - intros a Ha. unfold partial_residual in *. rewrite map_length, seq_length in Ha. rewrite Wy0 in Ha.
      rewrite (nth_map_lt _ _ _ 0%nat) by (rewrite seq_length, Wy0; auto). rewrite seq_nth by (rewrite Wy0; auto). cbn [Nat.add].
      rewrite (nth_yfinal n p) by (auto using Hn0, Wy0). f_equal. rewrite sum_of_seq. rewrite firstn_length, dl_length, Nat.min_l by auto.
      apply sumn_ext. intros b Hb. rewrite T_cell by lia. rewrite nth_C. rewrite ycoefs_firstn, <- HYC.
      rewrite !nth_firstn_lt by auto. rewrite dl_nth. replace (nth b (map c_c l) 0) with (c_c (nth b l sc0)) by (symmetry; exact (map_nth c_c l sc0 b)). reflexivity.
  Qed.
  (** X_i' y_i = X0' y_i *)
  Lemma cov_eq : forall i, (i <= length l)%nat -> tmatvec (before X0 l i) (ybefore y0 l i) = tmatvec X0 (ybefore y0 l i).
  Proof.
    intros i Hi. destruct chain_l as (HC & HYC & HB). destruct (HB i Hi) as [-> ->].
    assert (HCi : is_chain p X0 (firstn i dl)) by (apply is_chain_firstn; auto).
    destruct (chain_wf n p Hn0 _ X0 WX0 HCi) as [HF HW].
    assert (Hlen : length (yfinal y0 (firstn i dl)) = n) by (apply (yfinal_length n p Hn0); auto; apply Wy0).
    apply (vec_ext_dot _ _ p); [apply (tmatvec_length n p); auto using Hn0|apply (tmatvec_length n p); auto using Hn0, WX0|].
    intros w Hw. rewrite !(adjoint n p) by (auto using Hn0, WX0).
    rewrite (recon n p Hn0 (firstn i dl) X0 w) by (auto using WX0). rewrite vsum_zero; [ring|].
    intros v Hv. apply in_map_iff in Hv as (d & <- & Hd). destruct (y_orth n p Hn0 (firstn i dl) X0 y0 WX0 HCi Wy0) as [_ Ho].
    rewrite Ho by auto. ring.
  Qed.

  (* ---- C34 ---- *)
  Definition cov (a : nat) (j : nat) : R := inner (column j X0) (partial_residual y0 (sn_T f) (sn_C f) a).
  Lemma cov_vec : forall a, (a < length l)%nat -> tmatvec (before X0 l a) (ybefore y0 l a) = map (cov a) (seq 0 p).
  Proof.
    intros a Ha. rewrite cov_eq by lia. pose proof WX0 as HW.
    assert (Hl : length (tmatvec X0 (ybefore y0 l a)) = p) by (apply (tmatvec_length n p); auto using Hn0).
    apply (nth_ext _ _ 0 0); [rewrite map_length, seq_length; auto|]. intros j Hj. rewrite Hl in Hj.
    rewrite (nth_tmatvec n p) by (auto using Hn0). rewrite (nth_map_lt _ _ _ 0%nat) by (rewrite seq_length; auto). rewrite seq_nth by auto.
    unfold cov. rewrite resid_eq by lia. rewrite inner_dot. reflexivity.
  Qed.
  Lemma cov_nth : forall a j, (j < p)%nat -> nth j (map (cov a) (seq 0 p)) 0 = cov a j.
  Proof. intros a j Hj. rewrite (nth_map_lt _ _ _ 0%nat) by (rewrite seq_length; auto). rewrite seq_nth by auto. reflexivity. Qed.
  Lemma sel_iff : forall a j, sel eta (map (cov a) (seq 0 p)) j <->
    ((j < p)%nat /\ forall m, is_max (map (fun i => Rabs (cov a i)) (seq 0 p)) m -> eta * m < Rabs (cov a j)).
  Proof.
    intros a j. unfold sel. rewrite map_length, seq_length, map_map.
    assert (Hmax := vmaxl_is_max (map (fun x => Rabs (cov a x)) (seq 0 p))).
    assert (Hne : map (fun x => Rabs (cov a x)) (seq 0 p) <> []) by (destruct p; [lia|discriminate]). specialize (Hmax Hne).
    split; intros [Hj H]; split; auto; [intros m Hm|].
    - rewrite (is_max_unique _ _ _ Hm Hmax). rewrite cov_nth in H by auto. exact H.
    - rewrite cov_nth by auto. apply H. exact Hmax.
  Qed.
  Lemma retained_exact : forall a j, (a < length l)%nat ->
    (In j (nth a (sn_retained f) []) <->
      ((0 < a)%nat /\ In j (nth (a - 1) (sn_retained f) [])) \/
      ((j < p)%nat /\ forall m, is_max (map (fun i => Rabs (cov a i)) (seq 0 p)) m -> eta * m < Rabs (cov a j))).
  Proof.
    intros a j Ha. rewrite <- sel_iff. rewrite !nth_ret. destruct (l_facts a Ha) as (_ & _ & (Hg & _)). rewrite Hg, cov_vec by auto.
    destruct a as [|a]; cbn [gbefore].
    - cbn [In]. split; [intros [[]|H]; auto|intros [[H _]|H]; [lia|auto]].
    - replace (S a - 1)%nat with a by lia. split; [intros [H|H]; [left; split; [lia|auto]|auto]|intros [[_ H]|H]; auto].
  Qed.
  Lemma weight_exact : forall a j m, (a < length l)%nat -> (j < p)%nat -> In j (nth a (sn_retained f) []) ->
    is_max (map (fun i => Rabs (cov a i)) (seq 0 p)) m ->
    cell (sn_W f) j a = (Rabs (cov a j) - eta * m) * sign_of (cov a j) / sqrt (sum_of (map (fun i => cov a i * cov a i) (seq 0 p))).
  Proof.
    intros a j m Ha Hj Hin Hm. rewrite W_cell by auto. rewrite nth_ret in Hin. destruct (l_facts a Ha) as (_ & _ & (_ & Ew & _)). rewrite Ew, cov_vec by auto.
    rewrite keep_in by (auto; rewrite soft_length, map_length, seq_length; auto). unfold soft.
    rewrite (nth_map_lt _ _ _ 0) by (rewrite map_length, seq_length; auto). rewrite cov_nth by auto. f_equal.
    - f_equal. f_equal. f_equal. rewrite map_map. apply (is_max_unique (map (fun i => Rabs (cov a i)) (seq 0 p))); auto. apply vmaxl_is_max.
      destruct p; [lia|discriminate].
    - unfold vnorm. rnum. f_equal. unfold vsqnorm. rewrite map_map. reflexivity.
  Qed.

  (* ---- C37 ---- *)
  Lemma ssx_fro : ssx = fro n p X0.
  Proof.
    unfold ssx, fro. pose proof WX0 as HW. rewrite map_map. rewrite (vsum_map_sumn _ _ []), (wf_length _ _ _ HW). apply sumn_ext.
    intros i Hi. unfold nansum. rewrite nonnan_R. rewrite (vsum_map_sumn _ _ 0). rewrite (wf_nth_row n p) by auto. apply sumn_ext. intros; reflexivity.
  Qed.
  Lemma ssy_dot : ssy = dot y0 y0.
  Proof. unfold ssy, nansum. rewrite nonnan_R. rewrite (dot_sumn _ _ (length y0)) by auto. rewrite (vsum_map_sumn _ _ 0). apply sumn_ext; intros; reflexivity. Qed.
  Lemma fro_pos : (0 < length l)%nat -> 0 < fro n p X0.
  Proof.
    intros Ha. destruct chain_l as (Hc & _ & _). rewrite (fro_chain n p Hn0 dl X0 WX0 Hc). rewrite (vsum_map_sumn _ _ dc0), dl_length.
    pose proof (fro_nonneg n p (final X0 dl)) as H1.
    cut (0 < sumn (length l) (fun i => dot (d_t (nth i dl dc0)) (d_t (nth i dl dc0)) * dot (d_q (nth i dl dc0)) (d_q (nth i dl dc0)))); [lra|].
    apply (sumn_pos_at (length l) _ 0%nat); auto; [intros i _; apply Rmult_le_pos; apply dot_self_nonneg|].
    assert (Hq := unit_upper n p Hn0 dl X0 0 0 WX0 Hc (le_n 0)). rewrite dl_length in Hq. specialize (Hq Ha). cbn [Nat.eqb] in Hq.
    assert (Ht : dot (d_t (nth 0 dl dc0)) (d_t (nth 0 dl dc0)) <> 0).
    { rewrite dl_nth. cbn [todc d_t]. rewrite <- T_col, <- sqlen_dot by auto. apply Hnz. rewrite C_length. auto. }
    pose proof (dot_self_nonneg (d_t (nth 0 dl dc0))). pose proof (dot_self_nonneg (d_q (nth 0 dl dc0))) as Hqq.
    apply Rmult_lt_0_compat; [lra|]. destruct (Req_dec (dot (d_q (nth 0 dl dc0)) (d_q (nth 0 dl dc0))) 0) as [E|E]; [|lra].
    assert (Hll : length (d_q (nth 0 dl dc0)) = length (d_w (nth 0 dl dc0))) by (rewrite dl_nth; cbn [todc d_q d_w]; destruct (l_lengths 0 Ha) as (L1 & _ & L3 & _); lia).
    pose proof (cauchy_schwarz_sq (d_q (nth 0 dl dc0)) (d_w (nth 0 dl dc0)) Hll) as HC. rewrite Hq, E in HC. lra.
  Qed.
  Lemma xev_eq : forall a, (a < length l)%nat -> nth a (sn_xev f) 0 =
    dot (d_t (nth a dl dc0)) (d_t (nth a dl dc0)) * dot (c_p (nth a l sc0)) (c_p (nth a l sc0)) / fro n p X0 * 100.
  Proof.
    intros a Ha. destruct fit_attrs as (_ & _ & _ & _ & _ & _ & _ & _ & _ & _ & E & _). rewrite E.
    destruct (l_facts a Ha) as (_ & _ & (_ & _ & _ & _ & _ & _ & Ex & _)). rewrite ssx_fro in Ex. rewrite dl_nth.
    transitivity (c_xev (nth a l sc0)); [exact (map_nth c_xev l sc0 a)|exact Ex].
  Qed.
  Lemma yev_eq : forall a, (a < length l)%nat -> nth a (sn_yev f) 0 =
    dot (d_t (nth a dl dc0)) (d_t (nth a dl dc0)) * (nth a (sn_C f) 0 * nth a (sn_C f) 0) / dot y0 y0 * 100.
  Proof.
    intros a Ha. destruct fit_attrs as (_ & _ & _ & _ & _ & _ & _ & _ & _ & _ & _ & E & _). rewrite E.
    destruct (l_facts a Ha) as (_ & _ & (_ & _ & _ & _ & _ & _ & _ & Ex & _)). rewrite ssy_dot in Ex. rewrite dl_nth, nth_C.
    transitivity (c_yev (nth a l sc0)); [exact (map_nth c_yev l sc0 a)|exact Ex].
  Qed.
  Lemma xev_length : length (sn_xev f) = length l.
  Proof. destruct fit_attrs as (_ & _ & _ & _ & _ & _ & _ & _ & _ & _ & E & _). rewrite E, map_length. reflexivity. Qed.
  Lemma yev_length : length (sn_yev f) = length l.
  Proof. destruct fit_attrs as (_ & _ & _ & _ & _ & _ & _ & _ & _ & _ & _ & E & _). rewrite E, map_length. reflexivity. Qed.
  Lemma xev_nonneg : forall a, (a < length l)%nat -> 0 <= nth a (sn_xev f) 0.
  Proof.
    intros a Ha. rewrite xev_eq by auto. pose proof (fro_pos ltac:(lia)) as Hf0.
    pose proof (dot_self_nonneg (d_t (nth a dl dc0))). pose proof (dot_self_nonneg (c_p (nth a l sc0))).
    apply Rmult_le_pos; [|lra]. unfold Rdiv. apply Rmult_le_pos; [apply Rmult_le_pos; auto|]. left. apply Rinv_0_lt_compat. lra.
  Qed.
  Lemma xev_sum : sum_of (sn_xev f) <= 100.
  Proof.
    change sum_of with (@vsum R Num_R). rewrite vsum_sumn, xev_length. destruct (Nat.eq_dec (length l) 0) as [E0|E0]; [rewrite E0, sumn_0; lra|].
    pose proof (fro_pos ltac:(lia)) as Hf0. destruct chain_l as (Hc & _ & _). pose proof (fro_chain n p Hn0 dl X0 WX0 Hc) as Ef.
    rewrite (vsum_map_sumn _ _ dc0), dl_length in Ef. pose proof (fro_nonneg n p (final X0 dl)) as H1.
    assert (Hi := Rinv_0_lt_compat _ Hf0).
    apply Rle_trans with (sumn (length l) (fun a => dot (d_t (nth a dl dc0)) (d_t (nth a dl dc0)) * dot (d_q (nth a dl dc0)) (d_q (nth a dl dc0))) * (/ fro n p X0 * 100)).
    - rewrite <- sumn_scal_r. apply sumn_le. intros a Ha. rewrite xev_eq by auto. unfold Rdiv. rewrite !Rmult_assoc.
      apply Rmult_le_compat_l; [apply dot_self_nonneg|]. apply Rmult_le_compat_r; [nra|].
      destruct (l_facts a Ha) as (_ & _ & (_ & _ & _ & _ & Ep & _)). rewrite Ep, dl_nth. apply dot_keep_le.
    - rewrite <- Rmult_assoc. apply Rmult_le_reg_r with (/100); [lra|]. rewrite Rmult_assoc, !Rinv_r, Rmult_1_r by lra.
      apply Rmult_le_reg_r with (fro n p X0); auto. rewrite Rmult_assoc, Rinv_l by lra. lra.
  Qed.
  Lemma yev_nonneg : forall a, (a < length l)%nat -> dot y0 y0 <> 0 -> 0 <= nth a (sn_yev f) 0.
  Proof.
    intros a Ha H0. rewrite yev_eq by auto. pose proof (dot_self_nonneg y0).
    pose proof (dot_self_nonneg (d_t (nth a dl dc0))). pose proof (Rle_0_sqr (nth a (sn_C f) 0)).
    apply Rmult_le_pos; [|lra]. unfold Rdiv. apply Rmult_le_pos; [apply Rmult_le_pos; auto|]. left. apply Rinv_0_lt_compat. lra.
  Qed.
  Lemma yev_sum : dot y0 y0 <> 0 -> sum_of (sn_yev f) <= 100 /\
    sum_of (sn_yev f) = 100 - 100 * sqlen (partial_residual y0 (sn_T f) (sn_C f) (length (sn_C f))) / sqlen y0.
  Proof.
    intros H0. pose proof (dot_self_nonneg y0) as Hp0. assert (Hi : 0 < / dot y0 y0) by (apply Rinv_0_lt_compat; lra).
    destruct chain_l as (Hc & HC & HB). pose proof (y_pyth n p Hn0 dl X0 y0 WX0 Hc Wy0) as E.
    rewrite <- HC in E.
    assert (Es : sum_of (sn_yev f) = vsum (map2 (fun a c => dot (d_t c) (d_t c) * (a * a)) (map c_c l) dl) * (/ dot y0 y0 * 100)).
    { change sum_of with (@vsum R Num_R). rewrite !vsum_sumn, yev_length, map2_length, map_length, dl_length, Nat.min_id.
      rewrite <- sumn_scal_r. apply sumn_ext. intros a Ha. rewrite yev_eq by auto.
      rewrite (nth_map2 _ _ _ _ 0 dc0) by (rewrite ?map_length, ?dl_length; auto). rewrite nth_C.
      replace (nth a (map c_c l) 0) with (c_c (nth a l sc0)) by (symmetry; exact (map_nth c_c l sc0 a)). unfold Rdiv. ring. }
    rewrite C_length, resid_eq by auto. destruct (HB (length l) (le_n _)) as [_ EB]. rewrite EB.
    rewrite firstn_all2 by (rewrite dl_length; auto). rewrite !sqlen_dot.
    set (S := vsum (map2 (fun a c => dot (d_t c) (d_t c) * (a * a)) (map c_c l) dl)) in *. set (rr := dot (yfinal y0 dl) (yfinal y0 dl)) in *.
    assert (Hrr : 0 <= rr) by apply dot_self_nonneg.
    assert (ES : S = dot y0 y0 - rr) by lra.
    assert (E2 : sum_of (sn_yev f) = 100 - 100 * rr / dot y0 y0) by (rewrite Es, ES; field; auto).
    split; [|exact E2]. rewrite E2. assert (0 <= 100 * rr / dot y0 y0); [|lra]. unfold Rdiv. apply Rmult_le_pos; [lra|]. left; auto.
  Qed.

  (* ---- C38: the scaled residual ---- *)
  Lemma resid_final : vsub y0 (matvec X0 (sn_coef_scaled f)) = partial_residual y0 (sn_T f) (sn_C f) (length (sn_C f)).
  Proof.
    rewrite C_length, resid_eq by auto. destruct chain_l as (Hc & HC & HB). destruct (HB (length l) (le_n _)) as [_ EB]. rewrite EB.
    rewrite firstn_all2 by (rewrite dl_length; auto). pose proof WX0 as HW0. pose proof Hn0 as Hn'. pose proof Wy0 as Hy'. pose proof W_wf as HW.
    assert (Hlf : length (yfinal y0 dl) = n) by (apply (yfinal_length n p); auto using dl_wf).
    assert (HlB : length (matvec X0 (sn_coef_scaled f)) = n) by (rewrite matvec_length; apply (wf_length _ _ _ HW0)).
    assert (Hlr : length (vsub y0 (matvec X0 (sn_coef_scaled f))) = n) by (rewrite vsub_length; lia).
    destruct (Nat.eq_dec (length l) 0) as [El|El].
    { destruct fit_attrs as (E & _). unfold dl. destruct l; [|discriminate]. destruct E as (-> & _). cbn [map yfinal].
      assert (Hlm : length (matvec X0 (vzeros p)) = n) by (rewrite matvec_length; apply (wf_length _ _ _ HW0)).
      apply (nth_ext _ _ 0 0); [rewrite vsub_length; lia|]. intros i Hi. rewrite vsub_length in Hi by lia.
      rewrite nth_vsub by lia. rewrite nth_matvec by (rewrite (wf_length _ _ _ HW0); lia).
      rewrite dot_comm, dot_zeros_l. ring. }
    (* both residuals are orthogonal to all scores; their difference is in the span of the scores *)
    set (r := vsub y0 (matvec X0 (sn_coef_scaled f))) in *.
    assert (Hrt : forall d, In d dl -> dot r (d_t d) = 0).
    { apply (span_scores n p dl X0 r); auto. intros d Hd. apply (In_nth _ _ dc0) in Hd as (a & Ha & <-). rewrite dl_length in Ha.
      rewrite dl_nth. cbn [todc d_w].
      set (e := map (fun b => if Nat.eqb b a then 1 else 0) (seq 0 (length l))).
      assert (He : length e = length l) by (unfold e; rewrite map_length, seq_length; auto).
      replace (c_w (nth a l sc0)) with (matvec (sn_W f) e).
      - apply normal_eq; auto. lia.
      - destruct fit_attrs as (_ & _ & _ & EW & _). rewrite EW. apply (nth_ext _ _ 0 0).
        + rewrite matvec_length, (wf_length _ _ _ (wf_of_cols p _)). symmetry. apply l_lengths; auto.
        + intros j Hj. rewrite matvec_length, (wf_length _ _ _ (wf_of_cols p _)) in Hj. rewrite matvec_of_cols by (rewrite ?map_length; auto).
          rewrite map_length. rewrite (sumn_ext _ _ (fun b => if Nat.eqb b a then nth j (c_w (nth b l sc0)) 0 else 0)).
          * exact (sumn_delta (length l) a (fun b => nth j (c_w (nth b l sc0)) 0) Ha).
          * intros b Hb. replace (nth b (map c_w l) []) with (c_w (nth b l sc0)) by (symmetry; exact (map_nth c_w l sc0 b)).
            unfold e. rewrite (nth_map_lt _ _ _ 0%nat) by (rewrite seq_length; auto). rewrite seq_nth by auto. cbn [Nat.add].
            destruct (Nat.eqb b a); ring. }
    destruct (y_orth n p Hn' dl X0 y0 HW0 Hc Hy') as [_ Hyo].
    set (dd := vsub r (yfinal y0 dl)).
    assert (Hld : length dd = n) by (unfold dd; rewrite vsub_length; lia).
    assert (Hdt : forall d, In d dl -> dot dd (d_t d) = 0).
    { intros d Hd. unfold dd. rewrite dot_vsub_l by lia. rewrite Hrt, Hyo by auto. ring. }
    assert (Hdd : dot dd dd = 0).
    { unfold dd at 2. rewrite (dot_comm dd (vsub r _)), dot_vsub_l by lia. unfold r at 1. rewrite dot_vsub_l by lia.
      pose proof (yfinal_dot n p Hn' dl y0 dd Hy' dl_wf) as E1. rewrite E1.
      rewrite vsum_zero.
      - rewrite (dot_comm (matvec X0 (sn_coef_scaled f)) dd). rewrite (recon n p Hn' dl X0 (sn_coef_scaled f) dd HW0 Hc coef_len Hld).
        rewrite vsum_zero.
        + assert (Hz : dot dd (matvec (final X0 dl) (sn_coef_scaled f)) = 0); [|lra].
          destruct (chain_wf n p Hn' dl X0 HW0 Hc) as [_ HWf].
          destruct W_span as (z & Ez & Hz). rewrite Ez.
          assert (Hlz : length z = length l).
          { destruct (sn_W f) as [|r0 W'] eqn:EWW; [apply wf_length in HW; cbn in HW; lia|]. rewrite (Hz r0 (or_introl eq_refl)).
            apply (wf_row p (length l) (sn_W f)); rewrite EWW; auto. left; auto. }
          replace (fitted_by (sn_W f) z) with (matvec (sn_W f) z) by (unfold fitted_by, matvec; apply map_ext; intros; symmetry; apply inner_dot).
          destruct fit_attrs as (_ & _ & _ & EW & _). rewrite EW.
          rewrite <- (adjoint n p) by (auto; rewrite matvec_length; apply (wf_length _ _ _ (wf_of_cols p _))).
          rewrite dot_matvec_of_cols.
          * apply sumn_zero. intros a Ha. rewrite map_length in Ha.
            replace (nth a (map c_w l) []) with (c_w (nth a l sc0)) by (symmetry; exact (map_nth c_w l sc0 a)).
            rewrite (adjoint n p) by (auto; apply l_lengths; auto).
            assert (Hnul : nul n (final X0 dl) (d_w (nth a dl dc0))) by (apply (final_nul n p); auto; apply nth_In; rewrite dl_length; auto).
            rewrite dl_nth in Hnul. specialize (Hnul dd Hld). cbn [todc d_w] in Hnul. rewrite Hnul. ring.
          * apply (tmatvec_length n p); auto.
          * rewrite map_length; auto.
          * apply Forall_forall. intros w Hw. apply in_map_iff in Hw as (c0 & <- & Hin). apply (In_nth _ _ sc0) in Hin as (a & Ha & <-). apply l_lengths; auto.
        + intros v Hv. apply in_map_iff in Hv as (d & <- & Hd). rewrite Hdt by auto. ring.
      - intros v Hv. apply (In_nth _ _ 0) in Hv as (i & Hi & <-). rewrite map2_length, ycoefs_length, Nat.min_id in Hi.
        rewrite (nth_map2 _ _ _ _ 0 dc0) by (rewrite ?ycoefs_length; auto). rewrite (dot_comm _ dd), Hdt by (apply nth_In; auto). ring. }
    apply dot_self_zero in Hdd. apply (nth_ext _ _ 0 0); [lia|]. intros i Hi. rewrite Forall_forall in Hdd.
    assert (Hz : nth i dd 0 = 0) by (apply Hdd, nth_In; lia). unfold dd in Hz. rewrite nth_vsub in Hz by lia. lra.
  Qed.

  (* ---- C36 ---- *)
  Lemma transform_train : (0 < length l)%nat ->
    (forall a j, (a < length l)%nat -> In j (nth a (sn_retained f) []) -> In j (nth 0 (sn_retained f) [])) ->
    snipls_transform f (A2 X) = Ok (sn_T f).
  Proof.
    intros Hl Hcr. destruct chain_l as (Hc & HC & HB). pose proof WX0 as HW0. pose proof Hn0 as Hn'. pose proof W_wf as HW.
    destruct fit_attrs as (E & _ & Ep & EW & EP & _).
    unfold snipls_transform, predict_check_input. rewrite (wf_ncols n p) by auto. rewrite Ep, Nat.eqb_refl. cbn [negb].
    rewrite scaled_scale_data. cbn [bind]. f_equal.
    assert (HT : sn_T f = of_cols n (map c_t l)) by (apply T_eq; destruct l; [cbn in Hl; lia|discriminate]).
    assert (ER : exists PWi, inv (matmul (transpose (sn_P f)) (sn_W f)) = Ok PWi /\ sn_R f = matmul (sn_W f) PWi).
    { destruct l; [cbn in Hl; lia|]. destruct E as (PWi & Gi & E1 & _ & _ & E2 & _). exists PWi. auto. }
    destruct ER as (N & EN & ->).
    assert (HP : wf p (length l) (sn_P f)) by (rewrite EP, <- (map_length c_p l); apply wf_of_cols).
    assert (HPt : wf (length l) p (transpose (sn_P f))) by (apply wf_cols; auto).
    assert (HM : wf (length l) (length l) (matmul (transpose (sn_P f)) (sn_W f))) by (apply (wf_matmul _ p); auto).
    destruct (inv_right _ _ _ HM Hl EN) as [HN Hid].
    assert (HTw : wf n (length l) (sn_T f)) by (rewrite HT, <- (map_length c_t l); apply wf_of_cols).
    rewrite (matmul_assoc n p (length l) (length l)) by auto.
    assert (Key : matmul X0 (sn_W f) = matmul (sn_T f) (matmul (transpose (sn_P f)) (sn_W f))).
    { apply (mat_ext n (length l)); [apply (wf_matmul n p); auto|apply (wf_matmul n (length l)); auto|]. intros i b Hi Hb.
      destruct (l_lengths b Hb) as (Lw & _ & _ & _).
      (* left: entry i of X0 w_b *)
      assert (EL : mget (matmul X0 (sn_W f)) i b = nth i (matvec X0 (c_w (nth b l sc0))) 0).
      { rewrite (mget_matmul n p (length l)) by auto. rewrite nth_matvec by (rewrite (wf_length _ _ _ HW0); auto).
        rewrite (dot_row_sumn n p) by auto. apply sumn_ext. intros j Hj. f_equal. exact (W_cell b j Hb Hj). }
      change (@n0 R Num_R) with 0. rewrite EL.
      set (ei := map (fun b => if Nat.eqb b i then 1 else 0) (seq 0 n)).
      assert (Hei : length ei = n) by (unfold ei; rewrite map_length, seq_length; auto).
      assert (Hunit : forall v, length v = n -> dot ei v = nth i v 0).
      { intros v Hv. rewrite (dot_sumn _ _ n) by auto. rewrite <- (sumn_delta n i (fun b => nth b v 0)) by auto.
        apply sumn_ext. intros a Ha. unfold ei. rewrite (nth_map_lt _ _ _ 0%nat) by (rewrite seq_length; auto). rewrite seq_nth by auto. cbn [Nat.add].
        destruct (Nat.eqb a i); ring. }
      rewrite <- Hunit by (rewrite matvec_length; apply (wf_length _ _ _ HW0)).
      rewrite (recon n p Hn' dl X0 _ ei HW0 Hc Lw Hei).
      assert (Hnul : nul n (final X0 dl) (d_w (nth b dl dc0))) by (apply (final_nul n p); auto; apply nth_In; rewrite dl_length; auto).
      rewrite dl_nth in Hnul. specialize (Hnul ei Hei). cbn [todc d_w] in Hnul. rewrite Hnul, Rplus_0_r.
      rewrite (vsum_map_sumn _ _ dc0), dl_length. rewrite (mget_matmul n (length l) (length l)) by auto.
      apply sumn_ext. intros a Ha. change (@n0 R Num_R) with 0. destruct (l_lengths a Ha) as (_ & Lt & Lq & Lp).
      assert (Et : mget (sn_T f) i a = nth i (c_t (nth a l sc0)) 0) by exact (T_cell a i Ha Hi). rewrite Et.
      rewrite !dl_nth. cbn [todc d_q d_t]. rewrite Hunit by auto. rewrite Rmult_comm. f_equal.
      (* (P'W)_ab = q_a ' w_b *)
      rewrite (mget_matmul (length l) p (length l)) by auto.
      destruct (l_facts a Ha) as (_ & _ & (_ & _ & _ & _ & Epa & _)). destruct (l_facts b Hb) as (_ & _ & (_ & Ewb & _)).
      assert (Hsup : forall j, ~ In j (c_good (nth a l sc0)) -> nth j (c_w (nth b l sc0)) 0 = 0).
      { intros j Hj. destruct (Nat.lt_ge_cases j p) as [Hjp|Hjp]; [|apply nth_overflow; lia]. rewrite Ewb. apply keep_out. intros Hin. apply Hj.
        rewrite <- nth_ret in *. apply (nested_le 0 a); [lia|]. apply (Hcr b); auto. }
      rewrite <- (dot_keep (c_good (nth a l sc0))) by (auto; lia). rewrite <- Epa. rewrite (dot_sumn _ _ p) by auto.
      apply sumn_ext. intros j Hj. change (@n0 R Num_R) with 0.
      assert (E1 : mget (sn_W f) j b = nth j (c_w (nth b l sc0)) 0) by exact (W_cell b j Hb Hj). rewrite E1. f_equal.
      unfold transpose. assert (E2 : mget (cols (sn_P f)) a j = mget (sn_P f) j a) by (apply (mget_cols p (length l)); auto). rewrite E2.
      symmetry. exact (P_cell a j Ha Hj). }
    rewrite Key. rewrite <- (matmul_assoc n (length l) (length l) (length l)) by auto. rewrite Hid. apply (matmul_identity_r n); auto.
  Qed.
End Fit2.

(* ---- C38: no other coefficient vector in the span fits better ---- *)
Lemma ls_optimal : forall n (X0 : list (list R)) y0 B b, length y0 = n -> length X0 = n ->
  dot (vsub y0 (matvec X0 B)) (vsub (matvec X0 B) (matvec X0 b)) = 0 ->
  sqlen (vsub y0 (matvec X0 B)) <= sqlen (vsub y0 (matvec X0 b)).
Proof.
  intros n X0 y0 B b Hy HX H. rewrite !sqlen_dot. set (r := vsub y0 (matvec X0 B)) in *. set (d := vsub (matvec X0 B) (matvec X0 b)) in *.
  assert (Hr : length r = n) by (unfold r; rewrite vsub_length; rewrite ?matvec_length; lia).
  assert (Hd : length d = n) by (unfold d; rewrite vsub_length; rewrite ?matvec_length; lia).
  replace (vsub y0 (matvec X0 b)) with (vadd r d).
  - rewrite dot_vadd_l by lia. rewrite (dot_comm r (vadd r d)), (dot_comm d (vadd r d)). rewrite !dot_vadd_l by lia.
    rewrite (dot_comm d r), H. pose proof (dot_self_nonneg d). lra.
  - apply (nth_ext _ _ 0 0); [rewrite vadd_length, vsub_length; rewrite ?matvec_length; lia|]. intros i Hi. rewrite vadd_length in Hi by lia.
    rewrite nth_vadd by lia. unfold r, d. rewrite !nth_vsub by (rewrite ?matvec_length; lia). ring.
Qed.

(* ---- C88 ---- *)
Lemma first_nonzero : forall eta ssx ssy n p X y c, wf n p X -> (0 < n)%nat -> (0 < p)%nat -> length y = n -> 0 <= eta ->
  step_facts eta ssx ssy X y [] c -> c_good c <> [] -> 0 < dot y (c_t c) /\ dot (c_t c) (c_t c) <> 0.
Proof.
  intros eta ssx ssy n p X y c HX Hn Hp Hy He F Hne.
  destruct (step_lengths eta ssx ssy n p X y [] c HX Hn Hy F) as (Lw & Lt & _). destruct F as (Hg & Ew & Et & _).
  set (cv := tmatvec X y) in *. assert (Hlc : length cv = p) by (apply (tmatvec_length n p); auto).
  assert (Hcne : cv <> []) by (destruct cv; [cbn in Hlc; lia|discriminate]).
  assert (Hmx : 0 <= vmaxl (map Rabs cv)).
  { destruct (vmaxl_is_max (map Rabs cv)) as [Hin _]; [destruct cv; [congruence|discriminate]|]. apply in_map_iff in Hin as (v & <- & _). apply Rabs_pos. }
  assert (Hsel : exists j, sel eta cv j).
  { destruct (c_good c) as [|j g] eqn:E; [congruence|]. exists j. destruct (proj1 (Hg j) (or_introl eq_refl)) as [[]|H]; auto. }
  destruct Hsel as (j0 & Hj0 & Hs0).
  assert (Hnp : 0 < vnorm cv).
  { destruct (Req_dec (vnorm cv) 0) as [E|E]; [|pose proof (norm_nonneg cv); lra]. exfalso.
    assert (Hz : Forall (fun x => x = 0) cv) by (apply dot_self_zero; rewrite <- norm_sq, E; ring).
    rewrite Forall_forall in Hz. rewrite (Hz _ (nth_In cv 0 Hj0)), Rabs_R0 in Hs0. nra. }
  assert (Hip := Rinv_0_lt_compat _ Hnp).
  assert (Habs : forall v, v * sign_of v = Rabs v).
  { intros v. unfold sign_of. destruct (Rlt_dec 0 v); [rewrite Rabs_right; lra|]. destruct (Rlt_dec v 0); [rewrite Rabs_left; lra|].
    assert (v = 0) by lra. subst. rewrite Rabs_R0. ring. }
  assert (Hterm : forall j, (j < p)%nat -> nth j cv 0 * nth j (c_w c) 0 =
     if existsb (Nat.eqb j) (c_good c) then Rabs (nth j cv 0) * (Rabs (nth j cv 0) - eta * vmaxl (map Rabs cv)) * / vnorm cv else 0).
  { intros j Hj. rewrite Ew, keep_nth by (rewrite soft_length; lia). destruct (existsb (Nat.eqb j) (c_good c)); [|ring].
    unfold soft. rewrite (nth_map_lt _ _ _ 0) by lia. set (v := nth j cv 0). transitivity ((v * sign_of v) * (Rabs v - eta * vmaxl (map Rabs cv)) * / vnorm cv); [unfold Rdiv; ring|]. rewrite Habs. reflexivity. }
  assert (Hpos : 0 < dot y (c_t c)).
  { rewrite Et, <- (adjoint n p) by auto. fold cv. rewrite (dot_sumn _ _ p) by auto.
    apply (sumn_pos_at p _ j0); [lia| |].
    - intros j Hj. rewrite Hterm by auto. destruct (existsb (Nat.eqb j) (c_good c)) eqn:E; [|lra].
      apply existsb_in in E. apply Hg in E as [[]|[_ E]]. apply Rmult_le_pos; [apply Rmult_le_pos; [apply Rabs_pos|lra]|lra].
    - rewrite Hterm by lia. assert (E : existsb (Nat.eqb j0) (c_good c) = true) by (apply existsb_in, Hg; right; split; auto). rewrite E.
      apply Rmult_lt_0_compat; auto. apply Rmult_lt_0_compat; [nra|lra]. }
  split; auto. intros E. apply dot_self_zero in E. rewrite (dot_sumn _ _ n) in Hpos by auto. rewrite sumn_zero in Hpos; [lra|].
  intros i Hi. rewrite Forall_forall in E. rewrite (E (nth i (c_t c) 0)); [ring|]. apply nth_In; lia.
Qed.

Lemma one_by_one : forall M : list (list R), wf 1 1 M -> M = [[mget M 0 0]].
Proof.
  intros M [Hl HF]. destruct M as [|r [|? ?]]; cbn in Hl; try lia. inversion HF as [|? ? Hr _]; subst.
  destruct r as [|x [|? ?]]; cbn in Hr; try lia. reflexivity.
Qed.

Lemma one_component : forall env inv eta c s n p X y, is_matrix n p X -> (2 <= n)%nat -> (1 <= p)%nat -> length y = n ->
  plain_centre c -> plain_scale s -> 0 <= eta -> inverts_scalars inv ->
  exists f, snipls_fit env inv eta 1 c s X y = Ok f /\ nonzero_scores f.
Proof.
  intros env inv eta c s n p X y HX Hn Hp Hy Hpc Hps He Hinv.
  assert (Hsc : forall q Z, is_matrix n q Z -> (1 <= q)%nat -> exists m v Z0, scaled env c s Z = Ok (m, v, Z0) /\ length v = q /\ wf n q Z0).
  { intros q Z HZ Hq. destruct (fit_succeeds env c s 0 n q Z) as [st Est]; auto; [lra| |].
    - intros g [Hg1 _]. rewrite Rmult_0_l in Hg1. assert (g = 0)%nat; [|lia]. destruct g; auto. rewrite S_INR in Hg1. pose proof (pos_INR g). lra.
    - destruct (fit_cols env c s 0 n q Z st HZ Hn Hpc Hps Est) as (m & v & Ec & Es & Hm & Hv & _).
      destruct (scale_data_cells n q Z m v HZ ltac:(lia) Hq Hm Hv) as (Z0 & E0 & W0 & _).
      exists m, v, Z0. split; auto. unfold scaled. change (@n0 R Num_R) with 0.
      assert (Ecl : a_col_loc st = Some m /\ a_col_sca st = Some v).
      { apply fit_ok_inv in Est as (m' & v' & _ & _ & _ & _ & ->). cbn in *. split; congruence. }
      unfold sc_fit_transform. rewrite Est. unfold sc_transform. rewrite Ec, Es, (check_input_id n q) by auto. rewrite E0.
      destruct Ecl as [Ea Eb]. destruct st. cbn in *. rewrite Ea, Eb. auto. }
  destruct (Hsc p X HX Hp) as (mX & sX & X0 & E1 & L1 & W1).
  destruct (Hsc 1%nat (as_column y)) as (my & sy & Y0 & E2 & L2 & W2); [rewrite <- Hy; apply as_column_wf|lia|].
  set (y0 := col 0 Y0). assert (Hl0 : length y0 = n) by (unfold y0; rewrite col_length; apply (wf_length _ _ _ W2)).
  assert (Hn0 : (0 < n)%nat) by lia.
  assert (Hex : exists f, snipls_fit env inv eta 1 c s X y = Ok f).
  { unfold snipls_fit. rewrite (wf_ncols n p) by (auto; lia). rewrite (wf_length _ _ _ HX). destruct (Nat.eqb_spec n 1) as [|Hn1]; [lia|]. cbn [andb].
    rewrite Hy, Nat.eqb_refl. cbn [negb]. rewrite E1. cbn [bind]. unfold as_column in E2. rewrite E2. cbn [bind]. cbv zeta.
    rewrite manynan_R, vanynan_R. cbn [orb]. fold y0. rewrite xty_R. fold (comps_of eta 1 X0 y0).
    assert (HF := loop_facts false eta (vsum (map nansum (map (map nsqr) X0))) (nansum (map nsqr y0)) n p Hn0 Hp 1 X0 y0 [] W1 Hl0).
    assert (HL := loop_length false eta (vsum (map nansum (map (map nsqr) X0))) (nansum (map nsqr y0)) n p Hn0 Hp 1 X0 y0 [] W1 Hl0).
    cbv zeta in HF. fold (comps_of eta 1 X0 y0) in HF, HL.
    destruct HL as [HL|(HL & _)]; [|rewrite HL; cbn [bind]; rewrite L1, Nat.eqb_refl; cbn [negb]; eauto].
    destruct (comps_of eta 1 X0 y0) as [|c0 [|c1 l]] eqn:El; cbn in HL; try lia. cbn [map].
    destruct (HF 0%nat ltac:(cbn; lia)) as (_ & _ & F). cbn [before ybefore gbefore nth] in F.
    assert (Hg : c_good c0 <> []).
    { unfold comps_of in El. cbn [snipls_loop] in El. destruct (snipls_step _ _ _ _ _ _ _) as [c2|] eqn:Es in El; [|discriminate]. injection El as ->.
      unfold snipls_step in Es. cbv zeta in Es. destruct (union1d [] _) as [|g gs] in Es; [discriminate|]. injection Es as <-. discriminate. }
    destruct (first_nonzero _ _ _ n p X0 y0 c0 W1 Hn0 Hp Hl0 He F Hg) as [_ Ht].
    destruct (step_lengths _ _ _ n p X0 y0 [] c0 W1 Hn0 Hl0 F) as (Lw & Lt & Lq & Lp & _).
    pose proof F as (_ & Ew & Et & Eq & Ep & _).
    assert (HW : wf p 1 (of_cols p [c_w c0])) by apply (wf_of_cols p [c_w c0]).
    assert (HP : wf p 1 (of_cols p [c_p c0])) by apply (wf_of_cols p [c_p c0]).
    assert (HPt : wf 1 p (transpose (of_cols p [c_p c0]))) by (apply wf_cols; auto).
    assert (HWt : wf 1 p (transpose (of_cols p [c_w c0]))) by (apply wf_cols; auto).
    assert (HXt : wf p n (transpose X0)) by (apply wf_cols; auto).
    assert (HS : wf p p (matmul (transpose X0) X0)) by (apply (wf_matmul p n); auto).
    assert (HM : wf 1 1 (matmul (transpose (of_cols p [c_p c0])) (of_cols p [c_w c0]))) by (apply (wf_matmul 1 p); auto).
    assert (HWS : wf 1 p (matmul (transpose (of_cols p [c_w c0])) (matmul (transpose X0) X0))) by (apply (wf_matmul 1 p); auto).
    assert (HG : wf 1 1 (matmul (matmul (transpose (of_cols p [c_w c0])) (matmul (transpose X0) X0)) (of_cols p [c_w c0]))) by (apply (wf_matmul 1 p); auto).
    assert (Hcell : forall (v u : list R), length v = p -> length u = p -> mget (matmul (transpose (of_cols p [v])) (of_cols p [u])) 0 0 = dot v u).
    { intros v u Hv Hu. assert (Wv := wf_of_cols p [v]). assert (Wu := wf_of_cols p [u]). cbn [length] in Wv, Wu.
      rewrite (mget_matmul 1 p 1) by (auto; apply wf_cols; auto). rewrite (dot_sumn _ _ p) by auto. apply sumn_ext. intros j Hj.
      change (@n0 R Num_R) with 0. unfold transpose.
      assert (Ea : mget (cols (of_cols p [v])) 0 j = mget (of_cols p [v]) j 0) by (apply (mget_cols p 1); auto). rewrite Ea.
      rewrite !mget_of_cols_R by auto. reflexivity. }
    destruct (Hinv (mget (matmul (transpose (of_cols p [c_p c0])) (of_cols p [c_w c0])) 0 0)) as [N EN].
    { rewrite Hcell by auto. rewrite Ep, dot_keep by (lia || (intros j Hj; rewrite Ew; apply keep_out; auto)).
      assert (Ho := own_one n p Hn0 X0 (todc c0) [] W1). cbn [todc d_q d_w] in Ho. rewrite Ho; [lra|]. repeat split; auto. }
    rewrite (one_by_one _ HM), EN. cbn [bind].
    destruct (Hinv (mget (matmul (matmul (transpose (of_cols p [c_w c0])) (matmul (transpose X0) X0)) (of_cols p [c_w c0])) 0 0)) as [G EG].
    { 
      assert (Eg : mget (matmul (matmul (transpose (of_cols p [c_w c0])) (matmul (transpose X0) X0)) (of_cols p [c_w c0])) 0 0 = dot (c_t c0) (c_t c0)).
      { rewrite <- (matmul_assoc 1 p p 1) by auto. rewrite (matmul_of_cols p p) by (auto; repeat constructor; auto). cbn [map].
        rewrite Hcell by (auto; rewrite matvec_length; apply (wf_length _ _ _ HS)).
        rewrite (matvec_matmul p n p) by auto. rewrite <- tmatvec_transpose, <- Et. rewrite dot_comm, (adjoint n p) by auto. rewrite <- Et. reflexivity. }
      rewrite Eg. exact Ht. }
    rewrite (one_by_one _ HG), EG. cbn [bind]. rewrite L1, Nat.eqb_refl. cbn [negb]. eauto. }
  destruct Hex as [f Ef]. exists f. split; auto.
  intros a Ha. assert (S1 : scaled_by env c s X X0) by (eapply scaled_inv; eauto).
  assert (S2 : scaled_by env c s (as_column y) (as_column y0)) by (unfold y0; rewrite (as_column_col n) by auto; eapply scaled_inv; eauto).
  rewrite (C_length env inv eta 1 c s n p X y f X0 y0) in Ha by auto.
  rewrite (T_col env inv eta 1 c s n p X y f X0 y0) by auto. rewrite sqlen_dot.
  destruct (l_length env eta 1 c s n p X y X0 y0) as [Hl|[Hl _]]; auto; [|rewrite Hl in Ha; cbn in Ha; lia].
  assert (a = 0)%nat by lia. subst a.
  destruct (l_facts env eta 1 c s n p X y X0 y0) with (i := 0%nat) as (_ & _ & F); auto. cbn [before ybefore gbefore] in F.
  assert (Hg : c_good (nth 0 (comps_of eta 1 X0 y0) sc0) <> []).
  { unfold comps_of in *. cbn [snipls_loop] in *. destruct (snipls_step _ _ _ _ _ _ _) as [c2|] eqn:Es; [|cbn in Ha; lia]. cbn [nth].
    unfold snipls_step in Es. cbv zeta in Es. destruct (union1d [] _) as [|g gs] in Es; [discriminate|]. injection Es as <-. discriminate. }
  apply (first_nonzero _ _ _ n p X0 y0 _ W1 Hn0 Hp Hl0 He F Hg).
Qed.
