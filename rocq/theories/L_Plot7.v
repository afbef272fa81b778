(** Coefficient plots: lemmas for C146. *)

From Coq Require Import Reals String List Arith ZArith Bool Lia Lra Permutation.
Import ListNotations.
From Verif Require Import Num Err Vec VecR OrdR L_Mat S_Stats S_Weights L_Stats M_Utils M_Preproc M_Robcent M_Msupport M_Rm M_Plot M_Snipls S_Rm
  L_Lin L_Matmul L_Deflate L_Scaling L_Scaling2 L_Preproc L_Missing L_Msupport S_Regress L_Snipls L_Snipls2 L_Snipls3 L_Rm L_Rm2 M_Sprm S_Sprm L_Sprm L_Sprm2 L_Sprm3 L_Sprm4.
From Verif Require M_Plot2 S_Plot L_Plot5.
Import M_Plot2 S_Plot L_Plot5.
Import M_Sprm L_Sprm L_Sprm2 L_Sprm3 L_Sprm4.
Open Scope R_scope. Open Scope string_scope.

(** ** C146: one coefficient for every retained variable *)
Lemma coef_keep : forall (env : sp_env R) P df n p X y m, is_matrix n p X -> (2 <= n)%nat -> (1 <= p)%nat -> plain_centre (s_centre P) -> plain_scale (s_scale P) -> svd_rows env ->
  sprm_fit env P df X y = Ok m -> length (sp_coef m) = length (sp_keep m) /\ Forall (fun j => (j < p)%nat) (sp_keep m).
Proof.
  intros env P df n p X y m HX Hn Hp Hc Hs Hsvd E. assert (HlX := wf_length _ _ _ HX). assert (Hnc : ncols X = p) by (apply (wf_ncols n p); auto; lia).
  assert (Hxs : length y = n).
  { apply fit_attrs_sp in E. lia. }
  destruct (scaled_plain env P n p X y) as (mX & sX & Xs & my & sy & ys & Esc & WX & Hys & HmX & HsX & _); auto.
  unfold sprm_fit in E. destruct (sprm_run env P df X y) as [P' [calls r]] eqn:ER. cbn in E. subst r.
  apply run_inv in ER as (f & k & c1 & c2 & mX' & sX1 & Xs1 & my' & sy' & ys' & X' & Xs' & sX' & ER). cbv zeta in ER. rewrite Hnc, HlX in ER.
  destruct ER as (Hck & Hc1 & Hly & _ & Esc' & Hdr & EP & Hkk & HX' & Eest). apply check_k in Hck.
  rewrite (tau_plain (set_columns P c1) X Hs) in *. change (sp_scaled env (set_columns P c1) X y) with (sp_scaled env P X y) in Esc'.
  rewrite Esc in Esc'. injection Esc' as <- <- <- <- <- <-.
  assert (EXs' : Xs' = map (M_Sprm.sel (vars_to_keep p sX)) Xs) by (eapply keep_case; eauto; destruct HX' as [(H1 & _ & H2 & _)|(_ & H2 & _)]; auto).
  set (keep := vars_to_keep p sX) in *. set (p' := length keep). assert (Hp' : (1 <= p')%nat) by (unfold p'; lia).
  assert (WXs' : wf n p' Xs') by (rewrite EXs'; apply (select_wf n p Xs keep); auto).
  apply estimate_inv in Eest as (Us & rc & c & b & q & st & Est & _ & EL & EF).
  assert (HUs : length Us = n) by (rewrite <- (wf_length _ _ _ WXs'); eapply start_rows; [| |exact Est]; [rewrite (wf_length _ _ _ WXs'); auto|intros U S1; apply Hsvd]).
  apply finish_inv in EF as (fit & Efit & HsX' & EF). cbv zeta in EF.
  destruct EF as (_ & Ek & Eco & _).
  assert (Hl0 : length (q_sw (sp_start_state env P' f c b q Us y ys)) = n).
  { unfold sp_start_state. cbn [q_sw]. rewrite map_length, floor_length, vmul_length, !mweights_length, start_dx_length, start_dy_length; lia. }
  destruct (loop_last env P' f k (sp_loop_cuts env P' f k (c, b, q)) n Xs' ys (wf_length _ _ _ WXs') Hn Hys _ _ _ _ Hl0 EL) as [->|(st0 & brk & Hsw0 & Ep)].
  { discriminate. }
  unfold pass in Ep. apply bind_Ok in Ep as (m0 & Em & Ep). apply bind_Ok in Ep as (cr & _ & Ep). apply body_inv in Ep as (T & dt & Efit' & _).
  rewrite Efit in Efit'. injection Efit' as <-.
  assert (HXw : is_matrix n p' (row_scale (q_sw st0) Xs')) by (apply row_scale_wf; auto).
  assert (Hyw : length (vmul ys (q_sw st0)) = n) by (rewrite vmul_length, Hys, Hsw0; apply Nat.min_id).
  destruct (fit_inv _ _ _ _ _ _ n p' _ _ fit HXw Hn Hp' Hyw Em) as (X0 & y0 & B & Rw & T' & S1 & S2 & _).
  pose proof (coef_length _ _ _ _ _ _ n p' _ _ fit X0 y0 HXw Hn Hp' Hyw Em S1 S2) as Hcl.
  assert (HlsX' : length sX' = p') by (rewrite HsX'; apply (wf_ncols n p'); auto; lia).
  split; [rewrite Eco, Ek, map2_length, HlsX', Hcl; apply Nat.min_id|].
  rewrite Ek. unfold keep, vars_to_keep. apply Forall_forall. intros j Hj. apply filter_In in Hj as [Hj _]. apply in_seq in Hj. lia.
Qed.
Lemma C146_bars_l : forall (env : sp_env R) P df n p X y m t, is_matrix n p X -> (2 <= n)%nat -> (1 <= p)%nat -> plain_centre (s_centre P) -> plain_scale (s_scale P) -> svd_rows env ->
  sprm_fit env P df X y = Ok m -> full_theme t ->
  (forall names, length names = p -> sprm_plot_coeffs t m (sp_coef m) None (ArrayCols names) = Ok (combine (sp_coef m) (map (fun j => TName (nth j names "")) (sp_keep m)))) /\
  sprm_plot_coeffs t m (sp_coef m) None NoCols = Ok (combine (sp_coef m) (map TNum (seq 0 (length (sp_keep m))))).
Proof.
  intros env P df n p X y m t HX Hn Hp Hc Hs Hsvd E Ht. destruct (coef_keep env P df n p X y m HX Hn Hp Hc Hs Hsvd E) as [Hl HF]. split.
  - intros names Hnm. apply coeffs_named_l; auto; [rewrite Hnm; exact HF|]. destruct names; [cbn in Hnm; lia|discriminate].
  - rewrite coeffs_plain_l by auto. rewrite Hl. reflexivity.
Qed.
