(** Property theorems C133-C135: fits in other units. *)

From Coq Require Import Reals String List Arith ZArith Bool Lia Lra Permutation.
Import List ListNotations.
From Verif Require Import Num Err Vec VecR OrdR L_Mat S_Stats L_Stats S_Dicomo S_Units M_Utils M_Preproc M_Robcent M_Msupport M_Rm M_Snipls M_Sprm S_Rm S_Sprm
  L_Scaling L_Scaling2 T_Scaling L_Snipls L_Snipls2 T_Snipls L_Rm T_Rm L_Sprm L_Sprm2 L_Sprm4 T_Sprm L_Units L_UnitsSn L_UnitsRm L_UnitsSp.
Open Scope R_scope.

(** metres to centimetres and Celsius to Fahrenheit for the variables, and an
    affine change for the response *)
Definition aU : list R := [100; 9/5].
Definition bU : list R := [0; 32].
Lemma aU_change : unit_change 2 aU bU.
Proof. repeat split. unfold aU. repeat constructor; lra. Qed.
Example units_case : units aU bU X3 = [[100; 178/5]; [300; 41]; [400; 241/5]].
Proof. unfold units, unit_row, aU, bU, X3. cbn [map map2]. repeat (f_equal; try lra). Qed.
Ltac var3 := unfold variance_of, mean_of, sum_of, column; cbn [map nth fold_right length]; rewrite ?S_INR; cbn [INR]; lra.
Lemma X3_var : forall j, (j < 2)%nat -> 1 <= variance_of (column j X3).
Proof. intros j Hj. destruct j as [|[|j]]; [| |lia]; unfold X3; var3. Qed.
Lemma y3_var : 1 / 2 <= variance_of y3.
Proof. unfold y3; var3. Qed.
Lemma unit_var : forall j, (j < 2)%nat -> 1 <= variance_of (column j (units aU bU X3)).
Proof. intros j Hj. rewrite units_case. destruct j as [|[|j]]; [| |lia]; var3. Qed.
Lemma var_visible : forall v, 1 <= variance_of v -> visible SStd v.
Proof. intros v H q ->. apply Rle_trans with 1; [lra|]. rewrite <- sqrt_1. apply sqrt_le_1; lra. Qed.

(* ------------------------------------------------------------------ *)
(** C133 *)
Theorem C133_snipls : forall env inv eta k ce s n p a b c d X y,
  unit_centre ce -> unit_scale s -> is_matrix n p X -> (2 <= n)%nat -> (1 <= p)%nat -> length y = n ->
  unit_change p a b -> 0 < c -> (forall j, (j < p)%nat -> has_spread s (column j X)) -> has_spread s y ->
  snipls_fit env inv eta k ce s (units a b X) (affine c d y) =
  match snipls_fit env inv eta k ce s X y with Ok f => Ok (unit_model a b c d f) | Err e => Err e end.
Proof. exact snipls_units_l. Qed.
Print Assumptions C133_snipls.
Theorem C133_new_data : forall env inv eta k ce s n p a b c d X y m Xn f,
  unit_centre ce -> unit_scale s -> is_matrix n p X -> (2 <= n)%nat -> (1 <= p)%nat -> length y = n ->
  unit_change p a b -> 0 < c -> (forall j, (j < p)%nat -> has_spread s (column j X)) -> has_spread s y -> is_matrix m p Xn -> (1 <= m)%nat ->
  snipls_fit env inv eta k ce s X y = Ok f ->
  exists f' v, snipls_fit env inv eta k ce s (units a b X) (affine c d y) = Ok f' /\
    snipls_predict f (A2 Xn) = Ok v /\ snipls_predict f' (A2 (units a b Xn)) = Ok (affine c d v) /\
    snipls_transform f' (A2 (units a b Xn)) = snipls_transform f (A2 Xn).
Proof. exact snipls_new_units_l. Qed.
Print Assumptions C133_new_data.
Example C133_case : unit_centre CMean /\ unit_scale SStd /\ is_matrix 3 2 X3 /\ length y3 = 3%nat /\ unit_change 2 aU bU /\
  (forall j, (j < 2)%nat -> has_spread SStd (column j X3)) /\ has_spread SStd y3 /\ exists f, snipls_fit env0 inv1 (1/2) 1 CMean SStd X3 y3 = Ok f.
Proof.
  split; [left; reflexivity|]. split; [left; reflexivity|]. split; [apply X3_matrix|]. split; [reflexivity|]. split; [apply aU_change|].
  split; [intros j Hj; cbn [has_spread]; pose proof (X3_var j Hj); lra|]. split; [cbn [has_spread]; pose proof y3_var; lra|].
  destruct case_run as (f & X0 & y0 & H & _). exists f. apply H.
Qed.

(* ------------------------------------------------------------------ *)
(** C134: the least-squares problems posed are the same as well *)
Theorem C134_rm : forall env P n p a b c d X y,
  unit_centre (r_centre P) -> unit_scale (r_scale P) -> is_matrix n p X -> (2 <= n)%nat -> (1 <= p)%nat -> length y = n ->
  unit_change p a b -> 0 < c -> (forall j, (j < p)%nat -> has_spread (r_scale P) (column j X)) -> has_spread (r_scale P) y ->
  fst (rm_run env P (units a b X) (affine c d y)) = fst (rm_run env P X y) /\
  rm_fit env P (units a b X) (affine c d y) = match rm_fit env P X y with Ok m => Ok (unit_rm a b c d m) | Err e => Err e end.
Proof. exact rm_units_l. Qed.
Print Assumptions C134_rm.
Theorem C134_new_data : forall a b c d p m q Xn v, unit_change p a b -> is_matrix q p Xn -> (1 <= q)%nat ->
  rm_predict m (A2 Xn) = Ok v -> rm_predict (unit_rm a b c d m) (A2 (units a b Xn)) = Ok (affine c d v).
Proof. exact rm_new_units. Qed.
Print Assumptions C134_new_data.
Example C134_case : unit_centre CMean /\ unit_scale SStd /\ unit_change 2 aU bU /\ (forall j, (j < 2)%nat -> has_spread SStd (column j X3)) /\ has_spread SStd y3' /\
  exists m, rm_fit rmR (PR CMean SStd) X3 y3' = Ok m /\ exists v, rm_predict m (A2 X3) = Ok v.
Proof.
  split; [left; reflexivity|]. split; [left; reflexivity|]. split; [apply aU_change|].
  split; [intros j Hj; cbn [has_spread]; pose proof (X3_var j Hj); lra|]. split; [cbn [has_spread]; pose proof y3_var; unfold y3, y3' in *; lra|].
  destruct (rm_case CMean SStd) as [m E]; [left; reflexivity|left; reflexivity|intros [H _]; discriminate|]. exists m. split; [exact E|].
  exists (rm_fitted m). apply (C43_fitted_values rmR (PR CMean SStd) 3 2 X3 y3' m); auto; try lia. apply X3_matrix.
Qed.

(* ------------------------------------------------------------------ *)
(** C135: parameters left behind, weighted problems posed and fitted attributes,
    provided that no variable has a spread below 1e-5 in either of the units *)
Theorem C135_sprm : forall env P df n p a b c d X y,
  unit_centre (s_centre P) -> unit_scale (s_scale P) -> is_matrix n p X -> (2 <= n)%nat -> (1 <= p)%nat -> length y = n ->
  unit_change p a b -> 0 < c -> (forall j, (j < p)%nat -> visible (s_scale P) (column j X) /\ visible (s_scale P) (column j (units a b X))) ->
  has_spread (s_scale P) y ->
  let r := sprm_run env P df X y in let r' := sprm_run env P df (units a b X) (affine c d y) in
  fst r' = fst r /\ fst (snd r') = fst (snd r) /\ snd (snd r') = match snd (snd r) with Ok m => Ok (unit_sp a b c d m) | Err e => Err e end.
Proof. exact sprm_units_l. Qed.
Print Assumptions C135_sprm.
Theorem C135_new_data : forall env P df n p a b c d X y m q Xn,
  unit_centre (s_centre P) -> unit_scale (s_scale P) -> is_matrix n p X -> (2 <= n)%nat -> (1 <= p)%nat ->
  unit_change p a b -> (forall j, (j < p)%nat -> visible (s_scale P) (column j X)) -> is_matrix q p Xn -> (1 <= q)%nat ->
  sprm_fit env P df X y = Ok m ->
  sprm_predict (unit_sp a b c d m) (A2 (units a b Xn)) = match sprm_predict m (A2 Xn) with Ok v => Ok (affine c d v) | Err e => Err e end /\
  sprm_transform (unit_sp a b c d m) (A2 (units a b Xn)) = sprm_transform m (A2 Xn) /\
  sprm_weightnewx env (unit_sp a b c d m) (A2 (units a b Xn)) = sprm_weightnewx env m (A2 Xn).
Proof. exact sprm_new_units_l. Qed.
Print Assumptions C135_new_data.
(** without it the fit depends on the units: every fit that succeeds raises the
    package's exception when the same data are expressed in large enough units *)
Theorem C135_units_refuted : forall env P df n p X y m,
  unit_centre (s_centre P) -> unit_scale (s_scale P) -> s_columns P = ColBool false -> is_matrix n p X -> (2 <= n)%nat -> (1 <= p)%nat ->
  sprm_fit env P df X y = Ok m ->
  exists a, unit_change p a (repeat 0 p) /\ sprm_fit env P df (units a (repeat 0 p) X) y = Err MyException.
Proof. exact sprm_units_refuted_l. Qed.
Print Assumptions C135_units_refuted.
Example C135_case : let P := SR 1 CMean SStd false false (ColBool false) in
  unit_centre (s_centre P) /\ unit_scale (s_scale P) /\ unit_change 2 aU bU /\
  (forall j, (j < 2)%nat -> visible (s_scale P) (column j X3) /\ visible (s_scale P) (column j (units aU bU X3))) /\ has_spread (s_scale P) y3' /\
  exists m, sprm_fit spR P None X3 y3' = Ok m.
Proof.
  intros P. assert (HV : forall j, (j < 2)%nat -> visible SStd (column j X3)) by (intros j Hj; apply var_visible, X3_var; auto).
  split; [left; reflexivity|]. split; [left; reflexivity|]. split; [apply aU_change|].
  split; [intros j Hj; split; [apply HV; auto|apply var_visible, unit_var; auto]|]. split; [cbn [P SR s_scale has_spread]; pose proof y3_var; unfold y3, y3' in *; lra|].
  destruct (C49_supported_l spR P None 3 2 X3 y3') as [H|(e & He & [->|[[M HM]|[Z HZ]]])]; auto; try lia; try discriminate.
  - apply X3_matrix. - left; reflexivity. - left; reflexivity. - apply SR_names. - apply spR_quiet. - intros [_ H]; discriminate. - cbn; lia. - cbn; lra. - apply spR_svd.
  - exfalso. apply (C45_l spR P None 3 2 X3 y3') in He as [He|(st' & s & z & E1 & E2 & E3 & E4)]; auto; try lia.
    + revert He. apply SR_valid. left. discriminate.
    + cbn [P s_ncomp SR] in E3. injection E3 as <-.
      destruct (fit_cols _ _ _ 0 3 2 X3 st' X3_matrix (le_S 2 2 (le_n 2)) (or_introl eq_refl) (or_introl eq_refl) E1) as (m & v & _ & Es & _ & Lv & HC).
      apply fit_ok_inv in E1 as (m1 & v1 & _ & _ & _ & _ & ->). cbn in E2, Es. injection E2 as ->. injection Es as ->.
      assert (V : forall j, (j < 2)%nat -> 1 / 100000 <= nth j v 0).
      { intros j Hj. apply (visible_sca SStd (column j X3)); [left; reflexivity|destruct j as [|[|j]]; discriminate|auto|apply HC; auto]. }
      destruct v as [|v0 [|v1 [|]]]; try discriminate. pose proof (V 0%nat ltac:(lia)) as V0. pose proof (V 1%nat ltac:(lia)) as V1. cbn [nth] in V0, V1.
      unfold nonzero_scales in E4. cbn [filter] in E4. destruct (Rlt_dec v0 (1 / 100000)); [lra|]. destruct (Rlt_dec v1 (1 / 100000)); [lra|]. cbn in E4. lia.
    + apply X3_matrix. + left; reflexivity. + left; reflexivity. + apply SR_names. + apply spR_quiet.
Qed.
