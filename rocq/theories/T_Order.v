(** Property theorems C06 (all documented options) and C129-C132: the order of the
    cases. *)

From Coq Require Import Reals String List Arith ZArith Bool Lia Lra Permutation.
Import ListNotations.
From Verif Require Import Num Err Vec VecR OrdR L_Mat S_Stats S_Weights S_Regress M_Utils M_Preproc M_Robcent M_Msupport M_Rm M_Snipls M_Sprm M_Dicomo S_Rm S_Sprm
  T_Scaling T_Snipls T_Rm T_Sprm T_Dicomo S_Order L_Order L_OrderSc L_OrderSn L_OrderRm L_OrderSp L_OrderDi.
Open Scope R_scope.

(** concrete routines and data *)
Lemma env0_free : l1opt_order_free env0. Proof. intros X Y a _. reflexivity. Qed.
Lemma rmR_free : lstsq_order_free rmR.
Proof.
  intros n p o X y Ho HX Hy. cbn [rmR re_lstsq]. f_equal.
  assert (HO : is_matrix n p (reorder o X)) by (apply (reorder_wf n p o X Ho HX)).
  destruct HX as [L1 F1], HO as [L2 F2]. remember (reorder o X) as X' eqn:EX. destruct X as [|r X], X' as [|r' X']; cbn in L1, L2; try lia; try reflexivity.
  inversion F1 as [|? ? H1 ?]; subst. inversion F2 as [|? ? H3 ?]; subst. cbn [hd]. clear - H3. revert r H3. induction r' as [|a r' IH]; intros [|b r]; cbn; intros; try lia; try reflexivity. f_equal. apply (IH r); lia.
Qed.
Definition ord3 : list nat := [2; 0; 1]%nat.
Lemma ord3_order : case_order 3 ord3.
Proof. unfold case_order, ord3. cbn. apply perm_trans with [0; 2; 1]%nat; [apply perm_skip, perm_swap|apply perm_swap]. Qed.
Example reorder_case : reorder ord3 X3 = [[4; 9]; [1; 2]; [3; 5]]. Proof. reflexivity. Qed.

(* ------------------------------------------------------------------ *)
(** C06, all documented centres and scales *)
Theorem C06_documented : forall env c s t n p o X,
  documented_centre c -> documented_scale s -> l1opt_order_free env -> case_order n o -> is_matrix n p X -> (2 <= n)%nat ->
  sc_fit env (new_scaler c s t) (A2 (reorder o X)) = sc_fit env (new_scaler c s t) (A2 X) /\
  snd (sc_fit_transform env (new_scaler c s t) (A2 (reorder o X))) =
    match snd (sc_fit_transform env (new_scaler c s t) (A2 X)) with Ok Z => Ok (reorder o Z) | Err e => Err e end.
Proof. exact scaler_order_l. Qed.
Print Assumptions C06_documented.
Example C06_documented_case : documented_centre CKstepLTS /\ documented_scale STau2 /\ l1opt_order_free env0 /\ case_order 3 ord3 /\ is_matrix 3 2 X3.
Proof. split; [right; right; right; left; reflexivity|]. split; [right; right; left; reflexivity|]. split; [apply env0_free|]. split; [apply ord3_order|apply X3_matrix]. Qed.

(* ------------------------------------------------------------------ *)
(** C129 *)
Theorem C129_snipls : forall env inv eta k c s n p o X y,
  documented_centre c -> documented_scale s -> l1opt_order_free env ->
  is_matrix n p X -> (2 <= n)%nat -> (1 <= p)%nat -> length y = n -> case_order n o ->
  snipls_fit env inv eta k c s (reorder o X) (reorder o y) =
  match snipls_fit env inv eta k c s X y with Ok f => Ok (reorder_model o f) | Err e => Err e end.
Proof. exact snipls_order_l. Qed.
Print Assumptions C129_snipls.
Example C129_case : documented_centre CMean /\ documented_scale SStd /\ l1opt_order_free env0 /\ is_matrix 3 2 X3 /\ length y3 = 3%nat /\ case_order 3 ord3 /\
  exists f, snipls_fit env0 inv1 (1/2) 1 CMean SStd X3 y3 = Ok f.
Proof.
  split; [left; reflexivity|]. split; [left; reflexivity|]. split; [apply env0_free|]. split; [apply X3_matrix|]. split; [reflexivity|]. split; [apply ord3_order|].
  destruct case_run as (f & X0 & y0 & H & _). exists f. apply H.
Qed.

(* ------------------------------------------------------------------ *)
(** C130 *)
Theorem C130_rm : forall env P n p o X y,
  documented_centre (r_centre P) -> documented_scale (r_scale P) -> l1opt_order_free (re_prep env) -> lstsq_order_free env ->
  is_matrix n p X -> (2 <= n)%nat -> (1 <= p)%nat -> length y = n -> case_order n o ->
  fst (rm_run env P (reorder o X) (reorder o y)) = reorder_calls o (fst (rm_run env P X y)) /\
  rm_fit env P (reorder o X) (reorder o y) = match rm_fit env P X y with Ok m => Ok (reorder_rm o m) | Err e => Err e end.
Proof. exact rm_order_l. Qed.
Print Assumptions C130_rm.
Example C130_case : documented_centre CMedian /\ documented_scale SMad /\ l1opt_order_free (re_prep rmR) /\ lstsq_order_free rmR /\ is_matrix 3 2 X3 /\ length y3' = 3%nat /\ case_order 3 ord3 /\
  exists m, rm_fit rmR (PR CMedian SMad) X3 y3' = Ok m.
Proof.
  split; [right; left; reflexivity|]. split; [right; left; reflexivity|]. split; [apply env0_free|]. split; [apply rmR_free|]. split; [apply X3_matrix|]. split; [reflexivity|]. split; [apply ord3_order|].
  apply C42_case.
Qed.

(* ------------------------------------------------------------------ *)
(** C131: [df] are the column names of a data frame.  The parameters fit leaves
    behind, the weighted problems it poses and the fitted attributes *)
Theorem C131_sprm : forall env P df n p o X y,
  documented_centre (s_centre P) -> documented_scale (s_scale P) -> l1opt_order_free (re_prep (se_rm env)) ->
  (s_pcapp P = true -> svd_order_free env) ->
  is_matrix n p X -> (2 <= n)%nat -> (1 <= p)%nat -> length y = n -> case_order n o ->
  let r := sprm_run env P df X y in let r' := sprm_run env P df (reorder o X) (reorder o y) in
  fst r' = fst r /\ fst (snd r') = reorder_calls o (fst (snd r)) /\ snd (snd r') = reorder_res o (snd (snd r)).
Proof. exact sprm_order_l. Qed.
Print Assumptions C131_sprm.
Example C131_case : documented_centre CMean /\ documented_scale SNone /\ l1opt_order_free (re_prep (se_rm spR)) /\ is_matrix 3 2 X3 /\ length y3' = 3%nat /\ case_order 3 ord3 /\
  exists m, sprm_fit spR (SR 1 CMean SNone false false (ColBool false)) None X3 y3' = Ok m.
Proof.
  split; [left; reflexivity|]. split; [right; right; right; reflexivity|]. split; [apply env0_free|]. split; [apply X3_matrix|]. split; [reflexivity|]. split; [apply ord3_order|].
  destruct C46_case_real as (m & H & _). exists m. exact H.
Qed.
(** singular vectors that move with the cases: the normalised first column *)
Definition norm1 (X : list (list R)) : R := sqrt (fold_right Rplus 0 (map (fun r => nth 0 r 0 ^ 2) X)).
Definition svd1 (X : list (list R)) : res (list (list R) * list R) :=
  match X with
  | [] => Ok ([], [])
  | _ => Ok (map (fun r => nth 0 r 0 / norm1 X :: repeat 0 (length X - 1)) X, [norm1 X])
  end.
Definition sp1 : sp_env R := {| se_rm := rmR; se_inv := fun M => Ok M; se_svd := svd1 |}.
Example C131_svd_case : svd_order_free sp1.
Proof.
  intros n p o X Ho HX. cbn [sp1 se_svd]. assert (LX : length X = n) by apply HX. destruct X as [|r X].
  - cbn in LX. subst n. apply Permutation_nil in Ho. subst o. cbn. split; [split; constructor|]. split; [lia|]. exists []. split; [reflexivity|]. intros k Hk. reflexivity.
  - unfold svd1 at 1. pose proof (reorder_perm n o (r :: X) Ho LX) as HP. pose proof (reorder_length n o (r :: X) Ho LX) as HL.
    split; [|split].
    + split; [rewrite map_length; exact LX|]. apply Forall_forall. intros u Hu. apply in_map_iff in Hu as (v & <- & _). cbn [length]. rewrite repeat_length. cbn in LX. lia.
    + cbn in *. lia.
    + exists (map (fun v => nth 0 v 0 / norm1 (r :: X) :: repeat 0 (length (r :: X) - 1)) (reorder o (r :: X))). split.
      * assert (EN : norm1 (reorder o (r :: X)) = norm1 (r :: X)). { unfold norm1. f_equal. apply (vsum_perm (map _ _) (map _ _)). apply Permutation_map. symmetry. exact HP. }
        unfold svd1. destruct (reorder o (r :: X)) as [|r' X'] eqn:E; [cbn in HL; cbn in LX; lia|]. rewrite EN. replace (length (r' :: X')) with (length (r :: X)) by lia. reflexivity.
      * intros k Hk. rewrite reorder_map, reorder_map. reflexivity.
Qed.

(* ------------------------------------------------------------------ *)
(** C132: value and state of dicomo.fit, all modes and options *)
Theorem C132_dicomo : forall dc n o s x kw,
  dcor_order_free dc -> case_order n o -> cases n x ->
  (forall y, k_y kw = Some y -> cases n y) -> (forall d, k_metric kw = Some d -> symmetric_metric d) ->
  dicomo_fit dc s (areorder o x) (kw_reorder o kw) = dicomo_fit dc s x kw.
Proof. exact dicomo_order_l. Qed.
Print Assumptions C132_dicomo.
(** the distance covariance of the general algorithm does not see the order *)
Definition dcN : dcor_env R := mk_dcor (fun a b => snd (dicomo_fit dcX (dst "distance" "cov" "mean") a (kwn b))) (fun a b => snd (dicomo_fit dcX (dst "distance" "cov" "mean") a (kwn b))).
Lemma dcX_free : dcor_order_free dcX. Proof. intros n o x y _ _ _. split; reflexivity. Qed.
Lemma dcN_free : dcor_order_free dcN.
Proof.
  intros n o x y Ho Hx Hy. cbn [dcN dc_v dc_u]. change (kwn (areorder o y)) with (kw_reorder o (kwn y)).
  rewrite (dicomo_order_l dcX n o _ x (kwn y) dcX_free Ho Hx); [split; reflexivity| |]; cbn; [intros z E; injection E as <-; exact Hy|discriminate].
Qed.
Example C132_case : dcor_order_free dcN /\ case_order 3 ord3 /\ cases 3 (A2 X3) /\ (forall y, k_y (kwy (A1 y3)) = Some y -> cases 3 y) /\ symmetric_metric euclid.
Proof.
  split; [apply dcN_free|]. split; [apply ord3_order|]. split; [exists 2%nat; apply X3_matrix|]. split; [|apply euclid_sym]. intros y E. injection E as <-. reflexivity.
Qed.
