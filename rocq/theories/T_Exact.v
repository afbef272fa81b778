(** Property theorem C200: a response that is exactly linear in the variables. *)
From Coq Require Import Reals List Arith ZArith Bool Lia Lra.
Import ListNotations.
From Verif Require Import Num Err Vec VecR OrdR L_Mat S_Utils S_Stats S_Weights M_Utils M_Preproc M_Robcent M_Msupport M_Rm S_Rm L_Scaling L_Scaling2 L_Snipls L_Missing L_Rm L_Rm2 L_Msupport S_MissReg L_MissReg T_Rm S_Exact L_Exact.
Open Scope R_scope.

(** Xr, yr: the centred and scaled data; br: the solution of the first least-squares
    problem (Xw, yw), which reproduces yr *)
Theorem C200_exact_fit_refuted : forall (env : rm_env XR) P p X y Xr yr br Xw yw rest r tol, (2 <= length y)%nat -> (1 <= p)%nat -> Forall (fun r => length r = p) Xr ->
  xscaled (re_prep env) (r_centre P) (r_scale P) X (finite_mat Xr) -> xscaled (re_prep env) (r_centre P) (r_scale P) (map (fun v => [v]) y) (map (fun v => [v]) (finite_vec yr)) ->
  exact_fit Xr yr br -> r_tol P = Fin tol -> rejects_missing (re_lstsq env) ->
  rm_run env P X y = ((Xw, yw) :: rest, r) -> re_lstsq env Xw yw = Ok (finite_vec br) ->
  ((3 <= r_maxit P)%nat /\ tol < Rabs (sum_of (map (fun x => x * x) br) - 1 / 100000) / (1 / 100000) -> r = Err LinAlgError) /\
  (~ ((3 <= r_maxit P)%nat /\ tol < Rabs (sum_of (map (fun x => x * x) br) - 1 / 100000) / (1 / 100000)) -> forall m, r = Ok m -> all_missing (rm_cw m)).
Proof. exact exact_l. Qed.
Print Assumptions C200_exact_fit_refuted.

(** y = x for two cases: the fit raises an error *)
Definition has_nan (X : list (list XR)) : bool := existsb (existsb nisnan) X.
Definition rmE : rm_env XR := {| re_prep := {| env_l1opt := fun _ x => x; env_es2 := Fin 1 |}; re_normppf := fun _ => Fin 2; re_chi2ppf := fun _ _ => Fin 2;
  re_lstsq := fun X y => if has_nan X then Err LinAlgError else Ok [Fin 1] |}.
Definition PE : rm_par XR := mk_rm_par (Some MHuber) (Fin (1/2)) (Fin 0) (Fin 0) CMean SNone false 20 (Fin (1/100)) true.
Definition XE : list (list XR) := [[Fin 0]; [Fin 2]].
Definition yE : list XR := [Fin 0; Fin 2].
Lemma rmE_rejects : rejects_missing (re_lstsq rmE).
Proof.
  intros X y r Hr Hn. cbn [re_lstsq rmE]. replace (has_nan X) with true; [reflexivity|]. symmetry. apply existsb_exists. exists r. split; [exact Hr|]. apply existsb_exists. exists NaN. split; [exact Hn|apply isnan_NaN].
Qed.
Lemma med2X : forall u v, np_median [Fin u; Fin v] = Fin ((u + v) / 2).
Proof.
  intros u v. assert (E : np_median [Fin u; Fin v] = vmedian [Fin u; Fin v]).
  { unfold np_median, vanynan. cbn [existsb]. unfold nisnan. xnum. cbn [XReqb]. unfold Reqb. destruct (Req_EM_T u u); [|congruence]. destruct (Req_EM_T v v); [|congruence]. reflexivity. }
  rewrite E. unfold vmedian. cbn [length Nat.even Nat.div Nat.sub fst Nat.divmod]. unfold sort. cbn [fold_right insert]. xnum.
  repeat match goal with |- context [XRleb ?a ?b] => destruct (XRleb a b) end; cbn [nth insert]; rewrite nnat_XR; cbn [XRadd XRdiv INR]; destruct (Req_EM_T (1 + 1) 0); try lra; f_equal; field.
Qed.
Lemma scaledE : xscaled (re_prep rmE) CMean SNone XE (finite_mat [[-1]; [1]]).
Proof.
  destruct (ft_intro (re_prep rmE) (new_scaler CMean SNone (Fin 0)) (A2 XE) (finite_mat [[-1]; [1]]) [Fin 1] [Fin 1]) as [st E]; [| | | | |exists st; exact E].
  - cbn [location new_scaler sc_center sc_trimming]. unfold mean. cbn. rewrite !isnan_Fin. cbn [orb]. unfold Reqb. destruct (Req_EM_T 0 0); [|congruence]. destruct (Req_EM_T (2 / 1) 0); [lra|]. do 3 f_equal. lra.
  - reflexivity.
  - apply tr0X.
  - reflexivity.
  - cbn. unfold Reqb. destruct (Req_EM_T 1 0); [lra|]. repeat match goal with |- context [Req_EM_T 1 0] => destruct (Req_EM_T 1 0); [lra|] end. unfold finite_mat, finite_vec. cbn [map]. repeat f_equal; lra.
Qed.
(** both starting weights are one *)
Lemma huber2 : forall u v, u <= 2 -> v <= 2 -> mweights MHuber (Fin 2) (Fin 2) (Fin 2) [Fin u; Fin v] = [Fin 1; Fin 1].
Proof.
  intros u v Hu Hv. cbn [mweights]. unfold Huber, upd. cbn [map]. xnum. rewrite !XRleb_Fin. rewrite (proj2 (Rleb_true u 2) Hu), (proj2 (Rleb_true v 2) Hv). cbn [XRltb]. replace (Rltb 2 1) with false by (symmetry; apply Rltb_false; lra). reflexivity.
Qed.
Lemma firstE : map nsqrt (floor_w (vmul (mweights MHuber (ctx rmE PE (ncols XE)) (cbx rmE PE (ncols XE)) (crx rmE PE (ncols XE)) (start_dx (finite_mat [[-1]; [1]]))) 
  (mweights MHuber (cty rmE PE) (cby rmE PE) (cry rmE PE) (start_dy PE yE (col 0 (finite_mat [[-1]; [1]])))))) = [Fin 1; Fin 1].
Proof.
  assert (N1 : forall a, a * a = 1 -> XRsqrt (Fin (a * a + 0)) = Fin 1).
  { intros a ->. cbn. destruct (Rlt_dec (1 + 0) 0); [lra|]. rewrite Rplus_0_r, sqrt_1. reflexivity. }
  assert (D1 : start_dx (finite_mat [[-1]; [1]]) = [Fin (1 / ((1 + 1) / 2)); Fin (1 / ((1 + 1) / 2))]).
  { unfold start_dx, finite_mat, finite_vec, nsqr. cbn [map vsum fold_right]. xnum. cbn [XRmul XRadd]. rewrite !N1 by lra. rewrite med2X. cbn [XRdiv]. destruct (Req_EM_T ((1 + 1) / 2) 0); [lra|]. reflexivity. }
  assert (D2 : exists u v, start_dy PE yE (col 0 (finite_mat [[-1]; [1]])) = [Fin u; Fin v] /\ u <= 2 /\ v <= 2).
  { unfold start_dy, yE. cbn [r_centre PE]. rewrite med2X. cbn [map]. xnum. cbn [XRsub XRadd XRopp XRabs]. rewrite med2X. unfold c14826. xnum. cbn [XRmul XRdiv].
    replace (Rabs (0 + - ((0 + 2) / 2))) with 1 by (replace (0 + - ((0 + 2) / 2)) with (- (1)) by lra; rewrite Rabs_Ropp, Rabs_R1; reflexivity).
    replace (Rabs (2 + - ((0 + 2) / 2))) with 1 by (replace (2 + - ((0 + 2) / 2)) with 1 by lra; rewrite Rabs_R1; reflexivity).
    destruct (Req_EM_T (14826 / 10000 * ((1 + 1) / 2)) 0); [lra|]. do 2 eexists. split; [reflexivity|]. split; lra. }
  destruct D2 as (u & v & -> & Hu & Hv). rewrite D1. unfold ctx, cbx, crx, cty, cby, cry. cbn [r_specific PE re_normppf rmE]. rewrite !huber2 by lra. unfold vmul. cbn [map2]. xnum. cbn [XRmul].
  unfold floor_w, low, where_, wmin. cbn [where_from]. xnum. cbn [XRltb]. replace (Rltb (1 * 1) (1 / 1000000)) with false by (symmetry; apply Rltb_false; lra). rewrite set_none. cbn [map]. xnum. cbn [XRsqrt]. destruct (Rlt_dec (1 * 1) 0); [lra|]. rewrite Rmult_1_l, sqrt_1. reflexivity.
Qed.
Example C200_case : xscaled (re_prep rmE) (r_centre PE) (r_scale PE) XE (finite_mat [[-1]; [1]]) /\ xscaled (re_prep rmE) (r_centre PE) (r_scale PE) (map (fun v => [v]) yE) (map (fun v => [v]) (finite_vec [-1; 1])) /\
  exact_fit [[-1]; [1]] [-1; 1] [1] /\ rejects_missing (re_lstsq rmE) /\ (exists Xw yw rest r, rm_run rmE PE XE yE = ((Xw, yw) :: rest, r) /\ re_lstsq rmE Xw yw = Ok (finite_vec [1])) /\
  rm_fit rmE PE XE yE = Err LinAlgError.
Proof.
  pose proof scaledE as S. destruct S as [st1 E1].
  destruct (ft_same (re_prep rmE) (new_scaler CMean SNone (Fin 0)) st1 st1 (A2 XE) (A1 yE) (finite_mat [[-1]; [1]])) as [st2 E2]; auto.
  { apply ft_inv in E1 as (? & ? & _ & _ & _ & _ & _ & _ & _ & H & _). auto. }
  { apply ft_inv in E1 as (? & ? & _ & _ & _ & _ & _ & _ & _ & _ & H & _). auto. }
  { apply ft_inv in E1 as (? & ? & _ & _ & _ & _ & _ & _ & _ & _ & _ & H). auto. }
  assert (ER : exists Xw yw rest r, rm_run rmE PE XE yE = ((Xw, yw) :: rest, r) /\ re_lstsq rmE Xw yw = Ok (finite_vec [1])).
  { unfold rm_run, rm_check. cbn [r_fun PE r_p1]. xnum. rewrite XRleb_Fin. cbn [XRltb].
    replace (Rltb 1 (1 / 2)) with false by (symmetry; apply Rltb_false; lra). replace (Rleb (1 / 2) 0) with false by (symmetry; apply Rleb_false; lra).
    cbn [orb length XE yE Nat.eqb negb andb r_centre r_scale]. change [[Fin 0]; [Fin 2]] with XE. change [Fin 0; Fin 2] with yE. cbn [PE r_centre r_scale]. rewrite E1, E2.
    apply ft_inv in E1 as (mX & sX & _ & _ & _ & _ & _ & A1 & A2 & _). apply ft_inv in E2 as (my & sy & _ & _ & _ & _ & _ & A3 & A4 & _). rewrite A1, A2, A3, A4. cbv zeta.
    cbn [r_maxit PE rm_loop l_diff l_loops r_tol]. xnum. cbn [XRltb]. replace (Rltb (1 / 100) 1) with true by (symmetry; apply Rltb_true; lra). cbn [Nat.ltb Nat.leb andb l_sw].
    match goal with |- context [map XRsqrt ?w] => replace (map XRsqrt w) with [Fin 1; Fin 1] by (symmetry; exact firstE) end. match goal with |- context [re_lstsq rmE ?a ?b] => set (Xw := a); set (yw := b) end.
    assert (EL : re_lstsq rmE Xw yw = Ok [Fin 1]).
    { unfold Xw. cbn [re_lstsq rmE]. unfold has_nan, row_scale, finite_mat, finite_vec, vscale. cbn [map map2 existsb]. unfold nisnan. xnum. cbn [XRmul XReqb]. unfold Reqb.
      repeat match goal with |- context [Req_EM_T ?a ?a] => destruct (Req_EM_T a a); [|congruence] end. reflexivity. }
    rewrite EL. destruct (rm_body _ _ _ _ _ _ _ _ _) as [st' [|]]; [do 4 eexists; split; [reflexivity|exact EL]|].
    match goal with |- context [let '(_, _) := let '(_, _) := ?L in _ in _] => destruct L as [cs rr] end. do 4 eexists. split; [reflexivity|exact EL]. }
  split; [apply scaledE|]. split; [apply scaledE|]. split; [unfold exact_fit; cbn; repeat f_equal; lra|]. split; [apply rmE_rejects|]. split; [exact ER|].
  destruct ER as (Xw & yw & rest & r & ER & EL). unfold rm_fit. rewrite ER. cbn [snd].
  refine (proj1 (C200_exact_fit_refuted rmE PE 1 XE yE [[-1]; [1]] [-1; 1] [1] Xw yw rest r (1 / 100) _ _ _ scaledE scaledE _ eq_refl rmE_rejects ER EL) _); [cbn; lia|lia|repeat constructor|unfold exact_fit; cbn; repeat f_equal; lra|].
  split; [cbn; lia|]. cbn. rewrite Rabs_right by lra. lra.
Qed.
