(** Change of units: rm. *)

From Coq Require Import Reals List Arith ZArith Bool Lia Lra Permutation.
Import ListNotations.
From Verif Require Import Num Err Vec VecR OrdR L_Mat L_Lin L_Matmul S_Stats L_Stats S_Dicomo S_Units M_Utils M_Preproc M_Robcent M_Msupport M_Rm
  L_Scaling L_Scaling2 L_Snipls L_Msupport L_Rm L_Rm2 L_OrderSc L_OrderSn L_OrderRm L_Units L_UnitsSn.
Open Scope R_scope.

Lemma np_median_affine : forall c d (v : list R), v <> [] -> np_median (affine c d v) = c * np_median v + d.
Proof. intros c d v Hv. unfold np_median. rewrite !vanynan_R. apply vmedian_affine; auto. Qed.
Lemma start_dy_units : forall P c d (y ys : list R), y <> [] -> 0 < c -> start_dy P (affine c d y) ys = start_dy P y ys.
Proof.
  intros P c d y ys Hy Hc.
  assert (G : (let m := np_median (affine c d y) in let s := nmul c14826 (np_median (map (fun v => nabs (nsub v m)) (affine c d y))) in map (fun v => ndiv (nsub v m) s) (affine c d y)) =
              (let m := np_median y in let s := nmul c14826 (np_median (map (fun v => nabs (nsub v m)) y)) in map (fun v => ndiv (nsub v m) s) y)).
  { cbv zeta. rewrite np_median_affine by auto. set (m := np_median y).
    assert (EA : map (fun v => nabs (nsub v (c * m + d))) (affine c d y) = affine c 0 (map (fun v => nabs (nsub v m)) y)).
    { unfold affine. rewrite !map_map. apply map_ext. intros v. rnum. replace (c * v + d - (c * m + d)) with (c * (v - m)) by ring. rewrite Rabs_mult, (Rabs_right c) by lra. ring. }
    rewrite EA. rewrite np_median_affine by (destruct y; [congruence|discriminate]). set (q := np_median _). unfold affine. rewrite map_map. apply map_ext. intros v. rnum.
    replace (c * v + d - (c * m + d)) with (c * (v - m)) by ring. rewrite Rplus_0_r. replace (c14826 * (c * q)) with (c * (c14826 * q)) by ring. unfold Rdiv. rewrite Rinv_mult. 
    replace (c * (v - m) * (/ c * / (c14826 * q))) with ((c * / c) * ((v - m) * / (c14826 * q))) by ring. rewrite Rinv_r by lra. ring. }
  unfold start_dy. destruct (r_centre P), (r_scale P); try exact G; reflexivity.
Qed.
Lemma snd_ft_same : forall env (st st' : scaler R) x, sc_trimming st = 0 -> sc_trimming st' = 0 -> sc_center st = sc_center st' -> sc_scale st = sc_scale st' ->
  snd (sc_fit_transform env st x) = snd (sc_fit_transform env st' x).
Proof.
  intros env st st' x T T' C S. destruct (sc_fit_transform_ft env st x T) as [-> _]. destruct (sc_fit_transform_ft env st' x T') as [-> _]. rewrite C, S. reflexivity.
Qed.

(** both fits of the scaler *)
Lemma two_fits : forall env c s n p X y m v Z my sy Y, wf n p X -> (2 <= n)%nat -> length y = n ->
  ft env c s X = Ok (m, v, Z) -> ft env c s (map (fun u => [u]) y) = Ok (my, sy, Y) ->
  exists st1 st2, sc_fit_transform env (new_scaler c s 0) (A2 X) = (st1, Ok Z) /\ sc_fit_transform env st1 (M_Utils.A1 y) = (st2, Ok Y) /\
    a_col_loc st1 = Some m /\ a_col_sca st1 = Some v /\ a_col_loc st2 = Some my /\ a_col_sca st2 = Some sy /\ sc_center st2 = c /\ sc_trimming st2 = 0.
Proof.
  intros env c s n p X y m v Z my sy Y HX Hn Hy EX EY.
  destruct (sc_fit_transform_ft env (new_scaler c s 0) (A2 X) eq_refl) as [F1 F2]. rewrite (check_input_id n p) in F1, F2 by auto. cbn [new_scaler sc_center sc_scale] in F1, F2. rewrite EX in F1, F2.
  destruct (sc_fit_transform env (new_scaler c s 0) (A2 X)) as [st1 r1]. cbn [fst snd ft_data] in F1, F2. cbv zeta in F2. subst r1. destruct F2 as (A1 & A2 & A3 & A4 & A5).
  destruct (sc_fit_transform_ft env st1 (M_Utils.A1 y) A5) as [G1 G2]. rewrite check_input_vec in G1, G2 by lia. rewrite A3, A4, EY in G1, G2.
  exists st1. destruct (sc_fit_transform env st1 (M_Utils.A1 y)) as [st2 r2]. cbn [fst snd ft_data] in G1, G2. cbv zeta in G2. subst r2. destruct G2 as (B1 & B2 & B3 & B4 & B5).
  exists st2. repeat split; auto; congruence.
Qed.

Lemma rm_finish_units : forall env P n p a b c d X Xs y ys wx mX sX my sy st2 st2' st,
  unit_centre (r_centre P) -> unit_scale (r_scale P) -> (2 <= n)%nat -> wf n p X -> length y = n -> unit_change p a b -> 
  length sX = p -> length sy = 1%nat -> (forall j, (j < p)%nat -> 0 < nth j sX 0) ->
  sc_trimming st2 = 0 -> sc_trimming st2' = 0 -> sc_center st2 = r_centre P -> sc_center st2' = r_centre P ->
  rm_finish env P (units a b X) Xs (affine c d y) ys wx (unit_loc a b mX) (unit_sca a sX) (unit_loc [c] [d] my) (unit_sca [c] sy) st2' st =
  match rm_finish env P X Xs y ys wx mX sX my sy st2 st with Ok m => Ok (unit_rm a b c d m) | Err e => Err e end.
Proof.
  intros env P n p a b c d X Xs y ys wx mX sX my sy st2 st2' st Hc Hs Hn HX Hy Hu LsX Lsy PX T2 T2' C2 C2'. pose proof Hu as (Ha & Hb & _).
  assert (WU : wf n p (units a b X)) by (apply units_wf; auto). assert (Hn0 : (0 < n)%nat) by lia. assert (LX : length X = n) by (eapply wf_length; eauto).
  unfold rm_finish. destruct (l_b st) as [beta|]; [|reflexivity]. cbv zeta. rewrite (wf_ncols n p X), (wf_ncols n p (units a b X)) by auto.
  rewrite (snd_ft_same (re_prep env) (sc_set_params st2' None (Some SNone) None) (sc_set_params st2 None (Some SNone) None)) by (cbn; auto; congruence).
  destruct (snd (sc_fit_transform _ _ _)); [|reflexivity].
  assert (LUs : length (unit_sca a sX) = p) by (unfold unit_sca; rewrite map2_length; lia). rewrite LUs, LsX, Nat.eqb_refl. cbn [negb].
  change (map2 (fun sx bj : R => nmul (ndiv (nth 0 (unit_sca [c] sy) n0) sx) bj) (unit_sca a sX) beta) with (map2 (fun sx bj => nth 0 (unit_sca [c] sy) 0 / sx * bj) (unit_sca a sX) beta).
  rewrite (unit_bres p a b) by auto.
  change (map2 (fun sx bj : R => nmul (ndiv (nth 0 sy n0) sx) bj) sX beta) with (map2 (fun sx bj => nth 0 sy 0 / sx * bj) sX beta).
  set (Bres := map2 _ sX beta). rewrite (unit_matvec n p a b c X Bres) by auto. set (K := inner b (unit_coef a c Bres)).
  assert (Lyp : length (matvec X Bres) = n) by (rewrite matvec_length; auto). rewrite affine_vsub by congruence.
  assert (NE : vsub y (matvec X Bres) <> []). { intros E. apply (f_equal (@length R)) in E. rewrite vsub_length in E by congruence. cbn in E. lia. }
  assert (EC : forall ce, unit_centre ce -> match ce with CMean => vmean (affine c (d - K) (vsub y (matvec X Bres))) | _ => np_median (affine c (d - K) (vsub y (matvec X Bres))) end =
     c * match ce with CMean => vmean (vsub y (matvec X Bres)) | _ => np_median (vsub y (matvec X Bres)) end + (d - K)).
  { intros ce [->| ->]; [apply vmean_affine|apply np_median_affine]; auto. }
  rewrite (EC _ Hc). set (b0 := match r_centre P with CMean => vmean (vsub y (matvec X Bres)) | _ => np_median (vsub y (matvec X Bres)) end).
  change (fun v : R => nadd v (c * b0 + (d - K))) with (fun v : R => v + (c * b0 + (d - K))). change (fun v : R => nadd v b0) with (fun v : R => v + b0).
  rewrite affine_fit. rewrite affine_vsub by (rewrite map_length; congruence). replace (d - d) with 0 by ring.
  destruct Hs as [Es|Es]; rewrite Es; cbn [bind]; f_equal; unfold unit_rm; cbn [rm_p rm_coef rm_intercept rm_coef_scaled rm_intercept_scaled rm_resid rm_fitted rm_xcw rm_ycw rm_cw rm_xloc rm_yloc rm_xsca rm_ysca];
    (assert (EI : unit_icpt a b c d Bres b0 = c * b0 + (d - K)) by (unfold unit_icpt; fold K; ring)); rewrite EI; reflexivity.
Qed.
Lemma rm_units_l : forall env P n p a b c d X y, unit_centre (r_centre P) -> unit_scale (r_scale P) -> is_matrix n p X -> (2 <= n)%nat -> (1 <= p)%nat -> length y = n ->
  unit_change p a b -> 0 < c -> (forall j, (j < p)%nat -> has_spread (r_scale P) (column j X)) -> has_spread (r_scale P) y ->
  fst (rm_run env P (units a b X) (affine c d y)) = fst (rm_run env P X y) /\
  rm_fit env P (units a b X) (affine c d y) = match rm_fit env P X y with Ok m => Ok (unit_rm a b c d m) | Err e => Err e end.
Proof.
  intros env P n p a b c d X y Hc Hs HX Hn Hp Hy Hu Hc0 HsX Hsy. pose proof Hu as (Ha & Hb & _). assert (Hn0 : (0 < n)%nat) by lia.
  assert (LX : length X = n) by (eapply wf_length; eauto). assert (WU : wf n p (units a b X)) by (apply units_wf; auto). assert (LU : length (units a b X) = n) by (eapply wf_length; eauto).
  assert (Wy : wf n 1 (map (fun v => [v]) y)) by (rewrite <- Hy; apply as_column_wf).
  destruct (ft_units (re_prep env) (r_centre P) (r_scale P) n p a b X HX Hn Hp Hc Hs Hu HsX) as (mX & sX & Xs & EX & EX' & LmX & LsX & WX0 & PX).
  destruct (ft_units (re_prep env) (r_centre P) (r_scale P) n 1 [c] [d] (map (fun v => [v]) y) Wy Hn (le_n 1) Hc Hs (unit_change1 c d Hc0)) as (my & sy & Ys & EY & EY' & Lmy & Lsy & WY0 & PY).
  { intros j Hj. assert (j = 0)%nat by lia. subst j. rewrite column_single. exact Hsy. }
  rewrite <- column_units in EY'.
  destruct (two_fits _ _ _ n p X y _ _ _ _ _ _ HX Hn Hy EX EY) as (st1 & st2 & F1 & F2 & F3 & F4 & F5 & F6 & F7 & F8).
  destruct (two_fits _ _ _ n p (units a b X) (affine c d y) _ _ _ _ _ _ WU Hn ltac:(rewrite affine_length; auto) EX' EY') as (st1' & st2' & G1 & G2 & G3 & G4 & G5 & G6 & G7 & G8).
  unfold rm_fit, rm_run. destruct (rm_check P) as [f|e]; [|split; reflexivity]. rewrite affine_length, LU, LX, Hy, Nat.eqb_refl. cbn [negb].
  destruct (Nat.eqb_spec n 1) as [|_]; [lia|]. cbn [andb]. change (@n0 R Num_R) with 0. rewrite F1, F2, G1, G2, F3, F4, F5, F6, G3, G4, G5, G6.
  rewrite (wf_ncols n p X), (wf_ncols n p (units a b X)) by auto. cbv zeta.
  rewrite start_dy_units by (auto; intros ->; cbn in Hy; lia).
  destruct (rm_loop _ _ _ _ _ _ _ _) as [calls r]. split; [reflexivity|]. cbn [snd].
  destruct r as [[st|e]|]; [|reflexivity|reflexivity]. apply (rm_finish_units env P n p); auto. intros j Hj. apply PX; auto.
Qed.
Lemma rm_new_units : forall a b c d p m q Xn v, unit_change p a b -> is_matrix q p Xn -> (1 <= q)%nat ->
  rm_predict m (A2 Xn) = Ok v -> rm_predict (unit_rm a b c d m) (A2 (units a b Xn)) = Ok (affine c d v).
Proof.
  intros a b c d p m q Xn v Hu HX Hq E. pose proof Hu as (Ha & Hb & _). assert (WU : wf q p (units a b Xn)) by (apply units_wf; auto).
  unfold rm_predict, predict_check_input in *. rewrite (wf_ncols q p Xn) in E by auto. rewrite (wf_ncols q p (units a b Xn)) by auto.
  cbn [unit_rm rm_p rm_coef rm_intercept]. destruct (rm_p m) as [p'|]; [|discriminate]. destruct (negb (p =? p')%nat); [discriminate|]. apply Ok_inj in E. subst v.
  f_equal. apply (unit_predict a b c d p q); auto.
Qed.
