(** Property theorems C162-C164: the same variables in another order, some of them
    counted in the opposite direction. *)

From Coq Require Import Reals String List Arith ZArith Bool Lia Lra Permutation.
Import List ListNotations.
From Verif Require Import Num Err Vec VecR OrdR L_Mat S_Stats L_Stats S_Vars M_Utils M_Preproc M_Robcent M_Msupport M_Rm M_Snipls M_Sprm S_Rm S_Sprm
  L_Scaling L_Scaling2 T_Scaling L_Snipls L_Snipls2 T_Snipls L_Rm L_Rm2 T_Rm T_Sprm L_Vars L_VarsSn L_VarsRm L_VarsSp L_VarsSp2.
Open Scope R_scope.

(** the second variable first, with its sign reversed *)
Definition qV : list (nat * R) := [(1%nat, -1); (0%nat, 1)].
Lemma qV_relabelling : relabelling 2 qV.
Proof. split; [apply perm_swap|]. constructor; [right; reflexivity|]. constructor; [left; reflexivity|constructor]. Qed.
Example relabel_case : relabel qV X3 = [[-2; 1]; [-5; 3]; [-9; 4]].
Proof. unfold relabel, relabel_row, qV, X3. cbn [map fst snd nth]. repeat (f_equal; try lra). Qed.
Example relabel_set_case : relabel_set qV [1]%nat = [0]%nat /\ relabel_set qV [0; 1]%nat = [0; 1]%nat.
Proof. split; reflexivity. Qed.

(* ------------------------------------------------------------------ *)
(** C162: every fitted attribute of snipls, and new data *)
Theorem C162_snipls : forall p q env inv eta k c s n X y, relabelling p q -> (0 < p)%nat ->
  column_centre c -> column_scale s -> is_matrix n p X -> (2 <= n)%nat -> length y = n ->
  snipls_fit env inv eta k c s (relabel q X) y = match snipls_fit env inv eta k c s X y with Ok f => Ok (relabel_model q f) | Err e => Err e end.
Proof. intros p q env inv eta k c s n X y Hq Hp. exact (snipls_vars_l p q Hq Hp env inv eta k c s n X y). Qed.
Print Assumptions C162_snipls.
Theorem C162_new_data : forall p q env inv eta k c s n X y m Xn f, relabelling p q -> (0 < p)%nat ->
  column_centre c -> column_scale s -> is_matrix n p X -> (2 <= n)%nat -> length y = n -> is_matrix m p Xn -> (1 <= m)%nat ->
  snipls_fit env inv eta k c s X y = Ok f ->
  exists f', snipls_fit env inv eta k c s (relabel q X) y = Ok f' /\
    snipls_predict f' (A2 (relabel q Xn)) = snipls_predict f (A2 Xn) /\ snipls_transform f' (A2 (relabel q Xn)) = snipls_transform f (A2 Xn).
Proof. intros p q env inv eta k c s n X y m Xn f Hq Hp. exact (snipls_new_vars_l p q Hq Hp env inv eta k c s n X y m Xn f). Qed.
Print Assumptions C162_new_data.
Example C162_case : relabelling 2 qV /\ column_centre CMean /\ column_scale SStd /\ is_matrix 3 2 X3 /\ length y3 = 3%nat /\ exists f, snipls_fit env0 inv1 (1/2) 1 CMean SStd X3 y3 = Ok f.
Proof.
  split; [apply qV_relabelling|]. split; [left; reflexivity|]. split; [left; reflexivity|]. split; [apply X3_matrix|]. split; [reflexivity|]. destruct case_run as (f & X0 & y0 & H & _). exists f. apply H.
Qed.

(* ------------------------------------------------------------------ *)
(** C163: rm, the least-squares problems it poses and new data *)
Theorem C163_rm : forall p q env P n X y, relabelling p q -> (0 < p)%nat ->
  column_centre (r_centre P) -> column_scale (r_scale P) -> lstsq_relabel_free env -> is_matrix n p X -> (2 <= n)%nat -> length y = n ->
  fst (rm_run env P (relabel q X) y) = relabel_calls q (fst (rm_run env P X y)) /\
  rm_fit env P (relabel q X) y = match rm_fit env P X y with Ok m => Ok (relabel_rm q m) | Err e => Err e end.
Proof. intros p q env P n X y Hq Hp. exact (rm_vars_l p q Hq Hp env P n X y). Qed.
Print Assumptions C163_rm.
Theorem C163_new_data : forall p q env P n X y m k Xn, relabelling p q -> (0 < p)%nat ->
  column_centre (r_centre P) -> column_scale (r_scale P) -> lstsq_relabel_free env -> is_matrix n p X -> (2 <= n)%nat -> length y = n -> is_matrix k p Xn -> (1 <= k)%nat ->
  rm_fit env P X y = Ok m -> exists m', rm_fit env P (relabel q X) y = Ok m' /\ rm_predict m' (A2 (relabel q Xn)) = rm_predict m (A2 Xn).
Proof. intros p q env P n X y m k Xn Hq Hp. exact (rm_new_vars p q Hq Hp env P n X y m k Xn). Qed.
Print Assumptions C163_new_data.
(** a routine that follows the variables: the inner products of the columns with y,
    which are the least-squares coefficients for orthonormal columns *)
Definition rmV : rm_env R := {| re_prep := env0; re_normppf := fun q => 100 * q - 93; re_chi2ppf := fun q _ => 100 * q - 93;
                                re_lstsq := fun Xw yw => Ok (tmatvec Xw yw) |}.
Example C163_case : relabelling 2 qV /\ column_centre CMedian /\ column_scale SMad /\ lstsq_relabel_free rmV /\ is_matrix 3 2 X3 /\ length y3' = 3%nat /\ exists m, rm_fit rmV (PR CMedian SMad) X3 y3' = Ok m.
Proof.
  split; [apply qV_relabelling|]. split; [right; left; reflexivity|]. split; [right; left; reflexivity|]. split.
  { intros n p q X y Hq HX Hn Hy. cbn [rmV re_lstsq]. split; [apply (L_Lin.tmatvec_length n p); auto|]. f_equal. apply (tmatvec_rr p q Hq n); auto. }
  split; [apply X3_matrix|]. split; [reflexivity|].
  apply (C42_supported_l rmV (PR CMedian SMad) 3 2 X3 y3'); auto; try lia; try reflexivity.
  - apply PR_valid. - apply X3_matrix. - right; left; auto. - right; left; auto. - intros [E _]; discriminate. - cbn; lia. - cbn; lra. - intros Xw yw. eexists. reflexivity.
Qed.

(* ------------------------------------------------------------------ *)
(** C164: sprm, also when variables of zero scale are removed, and new data *)
Theorem C164_sprm : forall p q env P df n X y, relabelling p q -> (0 < p)%nat ->
  s_columns P = ColBool false -> column_centre (s_centre P) -> column_scale (s_scale P) -> (s_pcapp P = true -> svd_relabel_free env) ->
  is_matrix n p X -> (2 <= n)%nat -> length y = n ->
  sprm_fit env P df (relabel q X) y = match sprm_fit env P df X y with Ok m => Ok (relabel_sp q m) | Err e => Err e end /\
  (forall m, sprm_fit env P df X y = Ok m ->
     fst (snd (sprm_run env P df (relabel q X) y)) = relabel_calls (restrict q (sp_keep m)) (fst (snd (sprm_run env P df X y)))).
Proof. intros p q env P df n X y Hq Hp HB Hc Hs HV HX Hn Hy. exact (proj2 (sprm_vars_l p q Hq Hp env P df n X y HB Hc Hs HV HX Hn Hy)). Qed.
Print Assumptions C164_sprm.
Theorem C164_new_data : forall p q env P df n X y m k Xn, relabelling p q -> (0 < p)%nat ->
  s_columns P = ColBool false -> column_centre (s_centre P) -> column_scale (s_scale P) -> (s_pcapp P = true -> svd_relabel_free env) ->
  is_matrix n p X -> (2 <= n)%nat -> length y = n -> is_matrix k p Xn -> (1 <= k)%nat -> sprm_fit env P df X y = Ok m ->
  exists m', sprm_fit env P df (relabel q X) y = Ok m' /\ sprm_predict m' (A2 (relabel q Xn)) = sprm_predict m (A2 Xn) /\
    sprm_transform m' (A2 (relabel q Xn)) = sprm_transform m (A2 Xn) /\ sprm_weightnewx env m' (A2 (relabel q Xn)) = sprm_weightnewx env m (A2 Xn) /\
    forall yn sc, sprm_valscore m' (A2 (relabel q Xn)) yn sc = sprm_valscore m (A2 Xn) yn sc.
Proof. intros p q env P df n X y m k Xn Hq Hp. exact (sprm_new_vars_l p q Hq Hp env P df n X y m k Xn). Qed.
Print Assumptions C164_new_data.
(** the relabelling among those kept: of three variables, written in reverse order with
    the last one's sign changed, the middle one is removed *)
Example restrict_case : restrict [(2%nat, -1); (1%nat, 1); (0%nat, 1)] [0; 2]%nat = [(1%nat, -1); (0%nat, 1)].
Proof. reflexivity. Qed.
Example C164_case : relabelling 2 qV /\ column_centre CMean /\ column_scale SNone /\ is_matrix 3 2 X3 /\ length y3' = 3%nat /\
  s_pcapp (SR 1 CMean SNone false false (ColBool false)) = false /\ exists m, sprm_fit spR (SR 1 CMean SNone false false (ColBool false)) None X3 y3' = Ok m.
Proof.
  split; [apply qV_relabelling|]. split; [left; reflexivity|]. split; [right; right; reflexivity|]. split; [apply X3_matrix|]. split; [reflexivity|]. split; [reflexivity|].
  destruct C46_case_real as (m & E & _). exists m. exact E.
Qed.
(** a singular value routine satisfying the hypothesis for a fit that starts from principal components: it returns the
    inner products of the cases, and its single value 1 *)
Example C164_svd_case : svd_relabel_free {| se_rm := rmV; se_inv := fun M => Ok M; se_svd := fun X => Ok (map (fun r => map (fun s => dot r s) X) X, [1]) |}.
Proof.
  intros n p q X Hq HX Hn. cbn [se_svd]. destruct HX as [HL HF]. split; [|split; [cbn; lia|]].
  - split; [rewrite map_length; exact HL|]. apply Forall_forall. intros r Hr. apply in_map_iff in Hr as (r0 & <- & _). rewrite map_length. exact HL.
  - exists (map (fun _ => 1) X). split; [rewrite map_length; exact HL|]. split; [apply Forall_forall; intros x Hx; apply in_map_iff in Hx as (r & <- & _); left; reflexivity|].
    f_equal. f_equal. unfold relabel. rewrite !map_map. apply map_ext_in. intros r Hr. rewrite map_map. rewrite Forall_forall in HF.
    assert (G : forall l, (forall s, In s l -> length s = p) -> map (fun s => dot (relabel_row q r) (relabel_row q s)) l = map2 Rmult (map (fun _ => 1) l) (map (fun s => dot r s) l)).
    { induction l as [|s l IH]; intros H; [reflexivity|]. cbn [map map2]. rewrite IH by (intros t Ht; apply H; right; exact Ht). f_equal. rewrite (dot_rr p q Hq) by (first [apply HF; exact Hr|apply H; left; reflexivity]). lra. }
    apply G. exact HF.
Qed.
