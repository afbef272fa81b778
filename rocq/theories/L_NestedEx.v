(** A sparse fit with two components: the example of C177 *)
From Coq Require Import String Reals List Arith ZArith Bool Lia Lra.
Import List. Import ListNotations.
From Verif Require Import Num Err Vec VecR S_Stats S_Regress L_Mat L_Stats M_Utils M_Preproc M_Robcent L_Scaling M_Dicomo M_Ipopt M_Plot M_Snipls M_Ppdire
  S_Ppdire S_Ppdire2 S_Pca L_Snipls L_Snipls2 L_Snipls3 L_OrderSc L_Pp4 L_PcaEx L_PlsEx.
Open Scope R_scope.

Definition inv2 (M : list (list R)) : res (list (list R)) :=
  match M with
  | [[a]] => if Req_EM_T a 0 then Err LinAlgError else Ok [[/ a]]
  | [[a; b]; [c; d]] => if Req_EM_T (a * d - b * c) 0 then Err LinAlgError
                        else Ok [[d / (a * d - b * c); - b / (a * d - b * c)]; [- c / (a * d - b * c); a / (a * d - b * c)]]
  | _ => Err LinAlgError
  end.
Lemma inv2_ok : inverse_ok inv2.
Proof.
  intros k M N [HM HF] E. unfold inv2 in E.
  destruct M as [|[|a [|b [|? ?]]] [|[|c [|d [|? ?]]] [|? ?]]]; try discriminate.
  - destruct (Req_EM_T a 0) as [|Ha]; [discriminate|]. apply Ok_inj in E. subst N. cbn in HM. subst k. split; [repeat constructor|].
    intros i j Hi Hj. assert (i = 0%nat) by lia. assert (j = 0%nat) by lia. subst. unfold cell, sum_of. cbn. field. exact Ha.
  - destruct (Req_EM_T (a * d - b * c) 0) as [|Hd]; [discriminate|]. apply Ok_inj in E. subst N. cbn in HM. subst k. split; [repeat constructor|].
    intros i j Hi Hj. destruct i as [|[|i]]; [| |lia]; (destruct j as [|[|j]]; [| |lia]); unfold cell, sum_of; cbn; field; exact Hd.
Qed.

Definition yN : list R := [4; 9; -4; -9].
Lemma yN_scaled : scaled (pe_prep envC) CMean SNone (map (fun a => [a]) yN) = Ok ([0], [1], map (fun a => [a]) yN).
Proof.
  change (pp_scaled envC CMean SNone 0 (map (fun a => [a]) yN) = Ok ([0], [1], map (fun a => [a]) yN)).
  unfold pp_scaled. set (Y := map (fun a => [a]) yN). destruct (sc_fit_transform_ft (pe_prep envC) (new_scaler CMean SNone 0) (A2 Y) eq_refl) as [E1 E2]. cbn [new_scaler sc_center sc_scale] in E1, E2.
  assert (HY : is_matrix 4 1 Y) by (split; [reflexivity|]; repeat (apply Forall_cons; [reflexivity|]); apply Forall_nil).
  assert (EF : ft (pe_prep envC) CMean SNone (check_input (A2 Y)) = Ok ([0], [1], Y)).
  { change (check_input (A2 Y)) with Y. unfold ft. cbn [location]. rewrite mean0_R.
    replace (map vmean (cols Y)) with [0] by (unfold Y, yN; cbn; unfold vmean; cbn; rnum; repeat (apply (f_equal2 cons); [field|]); reflexivity).
    cbn [bind scale_est]. change (repeat _ (ncols Y)) with [1]. cbn [bind]. pose proof (scale_data_id 4 1 Y) as HS. change (vzeros 1) with [0] in HS. change (repeat 1 1) with [1] in HS.
    rewrite HS by (first [exact HY|lia]). reflexivity. }
  rewrite EF in E1, E2. destruct (sc_fit_transform _ _ _) as [st Z]. cbn [fst snd ft_data] in E1, E2. subst Z. cbn zeta in E2. destruct E2 as (-> & -> & _). reflexivity.
Qed.
Ltac lists := repeat (apply (f_equal2 cons); [|]); try reflexivity.
Lemma sq30 : vnorm [24; 18] = 30.
Proof. unfold vnorm. cbn. rnum. replace (24 * 24 + (18 * 18 + 0)) with (30 * 30) by ring. apply sqrt_square. lra. Qed.
Lemma step_val : forall (eta ssx ssy : R) X y old wh0 nw g wh1 good w t nt2 q pl c X' y',
  xty false X y = wh0 -> vnorm wh0 = nw ->
  map (fun v => Rabs v - eta * vmaxl (map Rabs (map (fun v => v / nw) wh0))) (map (fun v => v / nw) wh0) = g ->
  map2 Rmult g (map nsign (map (fun v => v / nw) wh0)) = wh1 ->
  union1d old (where_ (fun v => Rltb 0 v) g) = good -> good <> [] -> keep good wh1 = w -> xw false X w = t -> nsqr (vnorm t) = nt2 -> dotv false y t / nt2 = c ->
  map (fun v => v / nt2) (xty false X t) = q -> msub X (outer t q) = X' -> vsub y (vscale c t) = y' -> keep good q = pl ->
  exists a b, snipls_step false eta ssx ssy X y old = Some (mk_scomp w t q pl c a b good X' y').
Proof.
  intros eta ssx ssy X y old wh0 nw g wh1 good w t nt2 q pl c X' y' H1 H2 H3 H4 H5 H6 H7 H8 H9 H10 H11 H12 H13 H14.
  unfold snipls_step. cbv zeta. rewrite H1, H2. rnum. rewrite H3, H4, H5. destruct good as [|g0 gs]; [congruence|].
  rewrite H7, H8, H9, H10, H11, H12, H13, H14. do 2 eexists. reflexivity.
Qed.
Lemma rabs_pos : forall x, 0 <= x -> Rabs x = x.
Proof. intros. apply Rabs_right. lra. Qed.
Ltac nums := unfold xty, xw, dotv, keep, XP, yN, vscale, msub, outer, vsub; cbn; rnum; lists; try field.
Ltac cmps := repeat match goal with |- context [Rltb ?a ?b] =>
  first [replace (Rltb a b) with true by (symmetry; apply Rltb_true; lra) | replace (Rltb a b) with false by (symmetry; apply Rltb_false; lra)] end.
Lemma step1 : forall ssx ssy, exists a b, snipls_step false (3/4) ssx ssy XP yN [] =
  Some (mk_scomp [1/5; 0] [3/5; 0; -3/5; 0] [5; 0] [5; 0] (20/3) a b [0%nat] [[0; 0]; [0; 1]; [0; 0]; [0; -1]] [0; 9; 0; -9]).
Proof.
  intros ssx ssy. apply step_val with (wh0 := [24; 18]) (nw := 30) (g := [1/5; 0]) (wh1 := [1/5; 0]) (nt2 := 18/25).
  - nums.
  - apply sq30.
  - cbn. rnum. rewrite !(rabs_pos (_ / _)) by lra. replace (nmax (24 / 30) (18 / 30)) with (24/30) by (unfold nmax; rnum; destruct (Rltb _ _) eqn:E; [apply Rltb_true in E; lra|reflexivity]). lists; field.
  - cbn [map map2]. rewrite !nsign_sign_of. unfold sign_of. repeat (destruct (Rlt_dec _ _)); try lra. lists; field.
  - cbn. rnum. cmps. reflexivity.
  - discriminate.
  - nums.
  - nums.
  - rewrite nsqr_vnorm. cbn. rnum. field.
  - nums.
  - nums.
  - nums. 
  - nums.
  - nums.
Qed.
Lemma sq18 : vnorm [0; 18] = 18.
Proof. unfold vnorm. cbn. rnum. replace (0 * 0 + (18 * 18 + 0)) with (18 * 18) by ring. apply sqrt_square. lra. Qed.
Lemma step2 : forall ssx ssy, exists a b X' y', snipls_step false (3/4) ssx ssy [[0; 0]; [0; 1]; [0; 0]; [0; -1]] [0; 9; 0; -9] [0%nat] =
  Some (mk_scomp [0; 1/4] [0; 1/4; 0; -1/4] [0; 4] [0; 4] 36 a b [0%nat; 1%nat] X' y').
Proof.
  intros ssx ssy.
  assert (H : exists a b, snipls_step false (3/4) ssx ssy [[0; 0]; [0; 1]; [0; 0]; [0; -1]] [0; 9; 0; -9] [0%nat] =
    Some (mk_scomp [0; 1/4] [0; 1/4; 0; -1/4] [0; 4] [0; 4] 36 a b [0%nat; 1%nat] [[0; 0]; [0; 0]; [0; 0]; [0; 0]] [0; 0; 0; 0])).
  { apply step_val with (wh0 := [0; 18]) (nw := 18) (g := [-3/4; 1/4]) (wh1 := [0; 1/4]) (nt2 := 1/8).
  - nums.
  - apply sq18.
  - cbn. rnum. replace (0 / 18) with 0 by field. replace (18 / 18) with 1 by field. rewrite Rabs_R0, Rabs_R1.
    replace (nmax 0 1) with 1 by (unfold nmax; rnum; cmps; reflexivity). lists; field.
  - cbn [map map2]. rewrite !nsign_sign_of. unfold sign_of. repeat (destruct (Rlt_dec _ _)); try lra. lists; field.
  - cbn. rnum. cmps. reflexivity.
  - discriminate.
  - nums.
  - nums.
  - rewrite nsqr_vnorm. cbn. rnum. field.
  - nums.
  - nums.
  - nums.
  - nums.
  - nums. }
  destruct H as (a & b & H). do 4 eexists. exact H.
Qed.
Lemma fit_N : exists f1 f2, snipls_run (pe_prep envC) inv2 (3/4) 1 CMean SNone 4 2 XP yN f1 XP yN /\ snipls_run (pe_prep envC) inv2 (3/4) 2 CMean SNone 4 2 XP yN f2 XP yN /\
  sn_W f2 = [[1/5; 0]; [0; 1/4]] /\ sn_W f1 = [[1/5]; [0]] /\ nonzero_scores f2 /\ sn_xsca f2 = [1; 1] /\ sn_ysca f2 = [1].
Proof.
  assert (Hy0 : col 0 (map (fun a : R => [a]) yN) = yN) by reflexivity.
  assert (S1 : scaled (pe_prep envC) CMean SNone XP = Ok ([0; 0], [1; 1], XP)) by exact XP_scaled.
  pose proof (scaled_inv _ _ _ _ _ _ _ S1) as B1. pose proof (scaled_inv _ _ _ _ _ _ _ yN_scaled) as B2.
  set (ssx := vsum (map nansum (map (map nsqr) XP))). set (ssy := nansum (map nsqr yN)).
  destruct (step1 ssx ssy) as (a & b & E1). destruct (step2 ssx ssy) as (a' & b' & X' & y' & E2).
  set (c1 := mk_scomp [1/5; 0] [3/5; 0; -3/5; 0] [5; 0] [5; 0] (20/3) a b [0%nat] [[0; 0]; [0; 1]; [0; 0]; [0; -1]] [0; 9; 0; -9]) in *.
  set (c2 := mk_scomp [0; 1/4] [0; 1/4; 0; -1/4] [0; 4] [0; 4] 36 a' b' [0%nat; 1%nat] X' y') in *.
  assert (L1 : snipls_loop false (3/4) ssx ssy 1 XP yN [] = [c1]) by (cbn [snipls_loop]; rewrite E1; reflexivity).
  assert (L2 : snipls_loop false (3/4) ssx ssy 2 XP yN [] = [c1; c2]).
  { cbn [snipls_loop]. rewrite E1. change (c_X c1) with [[0; 0]; [0; 1]; [0; 0]; [0; -1]]. change (c_y c1) with [0; 9; 0; -9]. change (c_good c1) with [0%nat]. rewrite E2. reflexivity. }
  assert (F : forall k l PWi Gi, snipls_loop false (3/4) ssx ssy k XP yN [] = l -> l <> [] ->
    inv2 (matmul (transpose (of_cols 2 (map c_p l))) (of_cols 2 (map c_w l))) = Ok PWi ->
    inv2 (matmul (matmul (transpose (of_cols 2 (map c_w l))) (matmul (transpose XP) XP)) (of_cols 2 (map c_w l))) = Ok Gi ->
    exists f, snipls_fit (pe_prep envC) inv2 (3/4) k CMean SNone XP yN = Ok f /\ sn_W f = of_cols 2 (map c_w l) /\ sn_T f = of_cols 4 (map c_t l) /\ sn_C f = map c_c l /\ sn_xsca f = [1; 1] /\ sn_ysca f = [1]).
  { intros k l PWi Gi EL Hl I1 I2. unfold snipls_fit. change ((length XP =? 1)%nat && (2 <=? ncols XP)%nat) with false. change (negb (length XP =? length yN)%nat) with false. cbv iota zeta.
    rewrite S1. cbn [bind]. rewrite yN_scaled. cbn [bind]. rewrite Hy0. rewrite manynan_R, vanynan_R. cbn [orb]. fold ssx ssy. change (ncols XP) with 2%nat. rewrite EL.
    destruct l as [|c l]; [congruence|]. rewrite I1. cbn [bind]. rewrite I2. cbn [bind]. change (negb (length [1; 1] =? 2)%nat) with false. cbv iota.
    eexists. split; [reflexivity|]. repeat split. }
  assert (J : forall d, d <> 0 -> inv2 [[d]] = Ok [[/ d]]) by (intros d Hd; unfold inv2; destruct (Req_EM_T d 0); [contradiction|reflexivity]).
  assert (J2 : forall M, (exists u v, u <> 0 /\ v <> 0 /\ M = [[u; 0]; [0; v]]) -> exists N, inv2 M = Ok N).
  { intros M (u & v & Hu & Hv & ->). unfold inv2. destruct (Req_EM_T _ 0) as [Z|]; [|eauto]. exfalso. rewrite Rmult_0_l, Rminus_0_r in Z. apply Rmult_integral in Z. tauto. }
  assert (A1 : exists N, inv2 (matmul (transpose (of_cols 2 (map c_p [c1]))) (of_cols 2 (map c_w [c1]))) = Ok N).
  { eexists. replace (matmul _ _) with [[1]] by (cbn; rnum; lists; lists; field). apply J. lra. }
  assert (A2 : exists N, inv2 (matmul (matmul (transpose (of_cols 2 (map c_w [c1]))) (matmul (transpose XP) XP)) (of_cols 2 (map c_w [c1]))) = Ok N).
  { eexists. replace (matmul _ _) with [[18/25]] by (cbn; rnum; lists; lists; field). apply J. lra. }
  assert (A3 : exists N, inv2 (matmul (transpose (of_cols 2 (map c_p [c1; c2]))) (of_cols 2 (map c_w [c1; c2]))) = Ok N).
  { apply J2. exists 1, 1. split; [lra|]. split; [lra|]. cbn; rnum; lists; lists; field. }
  assert (A4 : exists N, inv2 (matmul (matmul (transpose (of_cols 2 (map c_w [c1; c2]))) (matmul (transpose XP) XP)) (of_cols 2 (map c_w [c1; c2]))) = Ok N).
  { apply J2. exists (18/25), (1/8). split; [lra|]. split; [lra|]. cbn; rnum; lists; lists; field. }
  destruct A1 as (N1 & A1), A2 as (N2 & A2), A3 as (N3 & A3), A4 as (N4 & A4).
  destruct (F 1%nat [c1] N1 N2 L1 ltac:(discriminate) A1 A2) as (f1 & F1 & W1 & _). destruct (F 2%nat [c1; c2] N3 N4 L2 ltac:(discriminate) A3 A4) as (f2 & F2 & W2 & T2 & C2 & SX & SY).
  exists f1, f2.
  assert (RUN : forall k f, snipls_fit (pe_prep envC) inv2 (3/4) k CMean SNone XP yN = Ok f -> snipls_run (pe_prep envC) inv2 (3/4) k CMean SNone 4 2 XP yN f XP yN).
  { intros k f E. unfold snipls_run. refine (conj XP_wf (conj _ (conj _ (conj eq_refl (conj E (conj B1 B2)))))); lia. }
  split; [auto|]. split; [auto|]. split; [rewrite W2; reflexivity|]. split; [rewrite W1; reflexivity|]. split; [|auto].
  intros i Hi. rewrite C2 in Hi. cbn in Hi. rewrite T2. destruct i as [|[|i]]; [| |lia]; unfold sqlen, inner, column, sum_of; cbn; lra.
Qed.
