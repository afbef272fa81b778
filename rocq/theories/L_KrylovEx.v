(** A fit without sparsity with two components, and data of another size with
    the same inner products: the examples of C186 and C187 *)
From Coq Require Import String Reals List Arith ZArith Bool Lia Lra.
Import List. Import ListNotations.
From Verif Require Import Num Err Vec VecR S_Stats S_Regress L_Mat L_Stats M_Utils M_Preproc M_Robcent L_Scaling M_Dicomo M_Ipopt M_Plot M_Snipls M_Ppdire
  S_Ppdire S_Ppdire2 S_Pca L_Snipls L_Snipls2 L_Snipls3 L_OrderSc L_Pp4 L_PcaEx L_PlsEx L_NestedEx S_Sudire S_Krylov.
Open Scope R_scope.

Definition XK : list (list R) := [[3/17; -4/17]; [-12/17; 16/17]; [-3/17; 4/17]; [12/17; -16/17]].
Definition yK : list R := [-32/17; 128/17; 32/17; -128/17].
Lemma stepK1 : forall ssx ssy, exists a b, snipls_step false 0 ssx ssy XP yN [] =
  Some (mk_scomp [4/5; 3/5] [12/5; 3/5; -12/5; -3/5] [20/17; 5/51] [20/17; 5/51] (125/51) a b [0%nat; 1%nat] XK yK).
Proof.
  intros ssx ssy. apply step_val with (wh0 := [24; 18]) (nw := 30) (g := [4/5; 3/5]) (wh1 := [4/5; 3/5]) (nt2 := 306/25).
  - nums.
  - apply sq30.
  - cbn. rnum. rewrite !(rabs_pos (_ / _)) by lra. lists; field.
  - cbn [map map2]. rewrite !nsign_sign_of. unfold sign_of. repeat (destruct (Rlt_dec _ _)); try lra. lists; field.
  - cbn. rnum. cmps. reflexivity.
  - discriminate.
  - nums.
  - nums.
  - rewrite nsqr_vnorm. cbn. rnum. field.
  - nums.
  - nums.
  - unfold XK. nums; lists; field.
  - unfold yK. nums.
  - nums.
Qed.
Lemma sqK : vnorm [-192/17; 256/17] = 320/17.
Proof. unfold vnorm. cbn. rnum. replace (-192 / 17 * (-192 / 17) + (256 / 17 * (256 / 17) + 0)) with (320/17 * (320/17)) by field. apply sqrt_square. lra. Qed.
Lemma stepK2 : forall ssx ssy, exists a b X' y', snipls_step false 0 ssx ssy XK yK [0%nat; 1%nat] =
  Some (mk_scomp [-3/5; 4/5] [-5/17; 20/17; 5/17; -20/17] [-3/5; 4/5] [-3/5; 4/5] (32/5) a b [0%nat; 1%nat] X' y').
Proof.
  intros ssx ssy.
  assert (H : exists a b, snipls_step false 0 ssx ssy XK yK [0%nat; 1%nat] =
    Some (mk_scomp [-3/5; 4/5] [-5/17; 20/17; 5/17; -20/17] [-3/5; 4/5] [-3/5; 4/5] (32/5) a b [0%nat; 1%nat] [[0; 0]; [0; 0]; [0; 0]; [0; 0]] [0; 0; 0; 0])).
  { apply step_val with (wh0 := [-192/17; 256/17]) (nw := 320/17) (g := [3/5; 4/5]) (wh1 := [-3/5; 4/5]) (nt2 := 50/17); unfold XK, yK.
  - nums.
  - apply sqK.
  - cbn. rnum. replace (-192 / 17 / (320 / 17)) with (- (3/5)) by field. rewrite Rabs_Ropp. rewrite !(rabs_pos (_ / _)) by lra. lists; field.
  - cbn [map map2]. rewrite !nsign_sign_of. unfold sign_of. replace (-192 / 17 / (320 / 17)) with (- (3/5)) by field. repeat (destruct (Rlt_dec _ _)); try lra. lists; field.
  - cbn. rnum. cmps. reflexivity.
  - discriminate.
  - nums.
  - nums.
  - rewrite nsqr_vnorm. cbn. rnum. field.
  - nums.
  - nums.
  - nums; lists; field.
  - nums.
  - nums. }
  destruct H as (a & b & H). do 4 eexists. exact H.
Qed.
Lemma fit_K : exists f, snipls_run (pe_prep envC) inv2 0 2 CMean SNone 4 2 XP yN f XP yN /\ nonzero_scores f /\ length (sn_C f) = 2%nat /\ sn_W f = [[4/5; -3/5]; [3/5; 4/5]].
Proof.
  assert (Hy0 : col 0 (map (fun a : R => [a]) yN) = yN) by reflexivity.
  assert (S1 : scaled (pe_prep envC) CMean SNone XP = Ok ([0; 0], [1; 1], XP)) by exact XP_scaled.
  pose proof (scaled_inv _ _ _ _ _ _ _ S1) as B1. pose proof (scaled_inv _ _ _ _ _ _ _ yN_scaled) as B2.
  set (ssx := vsum (map nansum (map (map nsqr) XP))). set (ssy := nansum (map nsqr yN)).
  destruct (stepK1 ssx ssy) as (a & b & E1). destruct (stepK2 ssx ssy) as (a' & b' & X' & y' & E2).
  set (c1 := mk_scomp [4/5; 3/5] [12/5; 3/5; -12/5; -3/5] [20/17; 5/51] [20/17; 5/51] (125/51) a b [0%nat; 1%nat] XK yK) in *.
  set (c2 := mk_scomp [-3/5; 4/5] [-5/17; 20/17; 5/17; -20/17] [-3/5; 4/5] [-3/5; 4/5] (32/5) a' b' [0%nat; 1%nat] X' y') in *.
  assert (L2 : snipls_loop false 0 ssx ssy 2 XP yN [] = [c1; c2]).
  { cbn [snipls_loop]. rewrite E1. change (c_X c1) with XK. change (c_y c1) with yK. change (c_good c1) with [0%nat; 1%nat]. rewrite E2. reflexivity. }
  assert (J2 : forall M, (exists u v s t, u * t - v * s <> 0 /\ M = [[u; v]; [s; t]]) -> exists N, inv2 M = Ok N).
  { intros M (u & v & s & t & Hd & ->). unfold inv2. destruct (Req_EM_T _ 0) as [Z|]; [contradiction|eauto]. }
  assert (A3 : exists N, inv2 (matmul (transpose (of_cols 2 (map c_p [c1; c2]))) (of_cols 2 (map c_w [c1; c2]))) = Ok N).
  { apply J2. exists 1, (-32/51), 0, 1. split; [lra|]. cbn; rnum; lists; lists; field. }
  assert (A4 : exists N, inv2 (matmul (matmul (transpose (of_cols 2 (map c_w [c1; c2]))) (matmul (transpose XP) XP)) (of_cols 2 (map c_w [c1; c2]))) = Ok N).
  { apply J2. exists (306/25), (-192/25), (-192/25), (194/25). split; [lra|]. cbn; rnum; lists; lists; field. }
  destruct A3 as (N3 & A3), A4 as (N4 & A4).
  assert (F : exists f, snipls_fit (pe_prep envC) inv2 0 2 CMean SNone XP yN = Ok f /\ sn_W f = of_cols 2 (map c_w [c1; c2]) /\ sn_T f = of_cols 4 (map c_t [c1; c2]) /\ sn_C f = map c_c [c1; c2]).
  { unfold snipls_fit. change ((length XP =? 1)%nat && (2 <=? ncols XP)%nat) with false. change (negb (length XP =? length yN)%nat) with false. cbv iota zeta.
    rewrite S1. cbn [bind]. rewrite yN_scaled. cbn [bind]. rewrite Hy0. rewrite manynan_R, vanynan_R. cbn [orb]. fold ssx ssy. change (ncols XP) with 2%nat. rewrite L2.
    rewrite A3. cbn [bind]. rewrite A4. cbn [bind]. change (negb (length [1; 1] =? 2)%nat) with false. cbv iota. eexists. split; [reflexivity|]. repeat split. }
  destruct F as (f & F & W2 & T2 & C2). exists f. split; [unfold snipls_run; refine (conj XP_wf (conj _ (conj _ (conj eq_refl (conj F (conj B1 B2)))))); lia|].
  split; [|split; [rewrite C2; reflexivity|rewrite W2; reflexivity]].
  intros i Hi. rewrite C2 in Hi. cbn in Hi. rewrite T2. destruct i as [|[|i]]; [| |lia]; unfold sqlen, inner, column, sum_of; cbn; lra.
Qed.

(** two cases with the inner products of the four cases of [XP], [yN] *)
Definition X22 : list (list R) := [[3; 1]; [3; -1]].
Definition y22 : list R := [13; -5].
Lemma id_scaled : forall env n p X, is_matrix n p X -> (2 <= n)%nat -> (1 <= p)%nat -> scaled_by env CNone SNone X X.
Proof.
  intros env n p X HX Hn Hp. destruct (sc_fit_transform_ft env (new_scaler CNone SNone 0) (A2 X) eq_refl) as [E1 E2]. cbn [new_scaler sc_center sc_scale] in E1, E2.
  assert (EF : ft env CNone SNone (check_input (A2 X)) = Ok (vzeros p, repeat 1 p, X)).
  { unfold check_input. replace ((length X =? 1)%nat && _)%bool with false by (destruct HX as [HL _]; rewrite HL; replace (n =? 1)%nat with false by (symmetry; apply Nat.eqb_neq; lia); reflexivity).
    unfold ft. cbn [location bind scale_est]. rewrite (wf_ncols n p X) by (auto; lia). pose proof (scale_data_id n p X) as HS. unfold vzeros in *. change (@n0 R Num_R) with 0. change (@n1 R Num_R) with 1. cbn [bind]. change (@n0 R Num_R) with 0 in HS. rewrite HS by (auto; lia). reflexivity. }
  rewrite EF in E1, E2. destruct (sc_fit_transform _ _ _) as [st Z] eqn:EZ. cbn [fst snd ft_data] in E1. subst Z. exists st. exact EZ.
Qed.
Lemma X22_matrix : is_matrix 2 2 X22. Proof. split; [reflexivity|repeat constructor]. Qed.
Lemma inv2_scalars : inverts_scalars inv2.
Proof. intros a Ha. unfold inv2. destruct (Req_EM_T a 0); [contradiction|eexists; reflexivity]. Qed.
Lemma fit_22 : exists f, snipls_run (pe_prep envC) inv2 (3/4) 1 CNone SNone 2 2 X22 y22 f X22 y22.
Proof.
  destruct (one_component (pe_prep envC) inv2 (3/4) CNone SNone 2 2 X22 y22) as (f & Ef & _); try lia; try lra; try reflexivity; [apply X22_matrix|right; right; reflexivity|right; right; reflexivity|apply inv2_scalars|].
  exists f. split; [apply X22_matrix|]. split; [lia|]. split; [lia|]. split; [reflexivity|]. split; [exact Ef|]. split; [apply (id_scaled _ 2 2); [apply X22_matrix|lia|lia]|].
  apply (id_scaled _ 2 1); [split; [reflexivity|repeat constructor]|lia|lia].
Qed.
Lemma same_products : gram_of 2 XP = gram_of 2 X22 /\ cross_of 2 XP yN = cross_of 2 X22 y22 /\ inner yN yN = inner y22 y22.
Proof.
  split; [|split].
  - unfold gram_of, matrix_of, inner, column, XP, X22, sum_of. cbn. lists; lists; ring.
  - unfold cross_of, inner, column, XP, X22, yN, y22, sum_of. cbn. lists; ring.
  - unfold inner, yN, y22, sum_of. cbn. ring.
Qed.
