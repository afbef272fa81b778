(** Property theorems C157, C158: data stored as integers. *)

From Coq Require Import String Reals QArith List Arith ZArith Bool Lia Lra.
Import List. Import ListNotations.
From Verif Require Import Num Err Vec M_Utils M_Preproc M_Robcent M_Dicomo M_Ipopt M_Msupport M_Ppdire M_Dtype S_Weights T_Scaling T_Snipls T_Ppdire L_Dtype.
Import List. Open Scope R_scope.

(* ------------------------------------------------------------------ *)
(** C157.  Arrays of floats: the model with number types is the model of the
    other files *)
Theorem C157_floats : forall (env : prep_env R) (pe : pp_env R) st prm d X f,
  sc_fit_transformD env st (floats X) = sc_fit_transform env st (A2 X) /\ pp_fitD pe prm d (floats X) f = pp_fit pe prm d X f.
Proof. intros. split; [apply ftD_float|apply ppD_float]; left; reflexivity. Qed.
Print Assumptions C157_floats.

(** scalers: every centre and every scale but scaleTau2 *)
Theorem C157_scaler : forall (env : prep_env R) st X, sc_scale st <> STau2 ->
  sc_fit_transformD env st (ints X) = sc_fit_transformD env st (floats X).
Proof. intros env st X Hs. unfold ints, floats. rewrite !ftD_float by (right; exact Hs). reflexivity. Qed.
Print Assumptions C157_scaler.
Example C157_scaler_case : sc_scale (new_scaler CMedian SMad (0 : R)) <> STau2 /\
  exists Z, snd (sc_fit_transformD envQ (new_scaler CMedian SStd 0%Q) (ints [[1]; [2]; [3]; [6]]%Q)) = Ok Z /\ nth 0 (nth 3 Z []) 0%Q <> 0%Q.
Proof. split; [discriminate|]. eexists. split; [vm_compute; reflexivity|]. vm_compute. discriminate. Qed.

(** with scaleTau2 no array of integers can be scaled *)
Theorem C157_scaleTau2_refuted : forall (env : prep_env R) st X Z, sc_scale st = STau2 ->
  snd (sc_fit_transformD env st (floats X)) = Ok Z -> snd (sc_fit_transformD env st (ints X)) = Err TypeError.
Proof. intros env st X Z Hs E. eapply ftD_tau; eassumption. Qed.
Print Assumptions C157_scaleTau2_refuted.
Example C157_tau_case : exists Z, snd (sc_fit_transformD envQ (new_scaler CMedian STau2 0%Q) (floats [[1]; [2]; [3]; [6]]%Q)) = Ok Z /\
  snd (sc_fit_transformD envQ (new_scaler CMedian STau2 0%Q) (ints [[1]; [2]; [3]; [6]]%Q)) = Err TypeError.
Proof. eexists. split; vm_compute; reflexivity. Qed.

(** projection pursuit: with center_data=True or whiten_data=True *)
Theorem C157_ppdire : forall (env : pp_env R) prm d X f, pp_center_data prm = true \/ pp_whiten prm = true ->
  pp_fitD env prm d (ints X) f = pp_fitD env prm d (floats X) f.
Proof. intros env prm d X f Hc. unfold ints, floats. rewrite !ppD_float by (right; exact Hc). reflexivity. Qed.
Print Assumptions C157_ppdire.
Example C157_ppdire_case : exists m, snd (pp_fitD (ppQ invQ no_svd) (prmQ 1 true) [] (ints X42) (f0 YNone)) = Ok m.
Proof. eexists. vm_compute. reflexivity. Qed.

(** otherwise (and without compression) no array of integers can be fitted *)
Theorem C157_ppdire_refuted : forall (env : pp_env R) prm d X f m, pp_center_data prm = false -> pp_whiten prm = false ->
  pp_compress prm = false \/ (ncols X <= length X)%nat -> (1 <= pp_ncomp (with_h prm (f_h f)))%nat ->
  snd (pp_fitD env prm d (floats X) f) = Ok m -> snd (pp_fitD env prm d (ints X) f) = Err TypeError.
Proof.
  intros env prm d X f m Hc Hw Hcp Hh E. unfold floats in E. rewrite ppD_float in E by (left; reflexivity). destruct (pp_fit env prm d X f) as [[q1 d1] r] eqn:EF. cbn [snd] in E. subst r.
  eapply ppD_int; eassumption.
Qed.
Print Assumptions C157_ppdire_refuted.
Example C157_ppdire_case2 : exists m, snd (pp_fitD ppR (prmR (OScipy "SLSQP")) [] (floats X32R) (f0 (YKw (A1 [1; 2; 4])))) = Ok m /\ X32R = map (map IZR) [[3; 4]; [1; 0]; [-4; 2]]%Z.
Proof. destruct fitR as (m & E & _). exists m. unfold floats. rewrite ppD_float by (left; reflexivity). rewrite E. split; reflexivity. Qed.

(* ------------------------------------------------------------------ *)
(** C158: the weights of distances stored as integers are 0 or 1 *)
Theorem C158_integers_refuted : forall c b r (z : list Z), 1 <= c -> c <= b -> b < r ->
  HuberD true (map IZR z) c = map (fun k => if Rle_dec (IZR k) c then 1 else 0) z /\
  HampelD true (map IZR z) c b r = map (fun k => if Rle_dec (IZR k) c then 1 else 0) z.
Proof. intros c b r z Hc Hb Hr. rewrite huber_int, hampel_int by assumption. rewrite !map_map. split; reflexivity. Qed.
Print Assumptions C158_integers_refuted.
(** the same distances as floats have their textbook weights (C26), which are
    strictly between 0 and 1 beyond the cut-off *)
Theorem C158_floats : forall c b r (x : list R), HuberD false x c = mweights MHuber c b r x /\ HampelD false x c b r = mweights MHampel c b r x.
Proof. intros. apply weightsD_float. Qed.
Print Assumptions C158_floats.
Example C158_case : HuberD true [1; 3; 4]%Q 2%Q = [1; 0; 0]%Q /\ HuberD false [1; 3; 4]%Q 2%Q = [1; 2#3; 1#2]%Q.
Proof. split; vm_compute; reflexivity. Qed.
