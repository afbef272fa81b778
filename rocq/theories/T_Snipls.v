(** Property theorems C32-C38, C88, C89: the sparse NIPALS regression snipls. *)

From Coq Require Import Reals QArith List Arith ZArith Bool Lia Lra Permutation.
Import ListNotations.
From Verif Require Import Num Err Vec VecR OrdR L_Mat S_Stats S_Regress L_Stats M_Utils M_Preproc M_Robcent M_Plot M_Snipls
  L_Scaling L_Scaling2 T_Scaling L_Snipls L_Snipls2 L_Snipls3.
Open Scope R_scope.

(** concrete inverse routines *)
Definition inv1 (M : list (list R)) : res (list (list R)) :=
  match M with
  | [[a]] => if Req_EM_T a 0 then Err LinAlgError else Ok [[/ a]]
  | _ => Err LinAlgError
  end.
Lemma inv1_ok : inverse_ok inv1 /\ inverts_scalars inv1.
Proof.
  split.
  - intros k M N [HM HF] E. unfold inv1 in E. destruct M as [|[|a [|? ?]] [|? ?]]; try discriminate.
    destruct (Req_EM_T a 0) as [|Ha]; [discriminate|]. injection E as <-. cbn in HM. subst k. split; [repeat constructor|].
    intros i j Hi Hj. assert (i = 0%nat) by lia. assert (j = 0%nat) by lia. subst. unfold cell, sum_of. cbn. field. exact Ha.
  - intros a Ha. unfold inv1. destruct (Req_EM_T a 0); [contradiction|]. eauto.
Qed.
Definition invQ (M : list (list Q)) : res (list (list Q)) :=
  match M with
  | [[a]] => if Qeq_bool a 0 then Err LinAlgError else Ok [[Qred (/ a)]]
  | [[a; b]; [c; d]] =>
      let det := (a * d - b * c)%Q in
      if Qeq_bool det 0 then Err LinAlgError
      else Ok [[Qred (d / det); Qred (- b / det)]; [Qred (- c / det); Qred (a / det)]]%Q
  | _ => Err LinAlgError
  end.
Lemma invQ_right : forall a b c d e f g h, invQ [[a; b]; [c; d]] = Ok [[e; f]; [g; h]] ->
  (a * e + b * g == 1 /\ a * f + b * h == 0 /\ c * e + d * g == 0 /\ c * f + d * h == 1)%Q.
Proof.
  intros a b c d e f g h E. unfold invQ in E. destruct (Qeq_bool (a * d - b * c) 0) eqn:E0; [discriminate|].
  apply Qeq_bool_neq in E0. revert E.
  generalize (Qred_correct (d / (a * d - b * c))) (Qred_correct (- b / (a * d - b * c)))
    (Qred_correct (- c / (a * d - b * c))) (Qred_correct (a / (a * d - b * c))).
  generalize (Qred (d / (a * d - b * c))) (Qred (- b / (a * d - b * c))) (Qred (- c / (a * d - b * c))) (Qred (a / (a * d - b * c))).
  intros e' f' g' h' He Hf Hg Hh E. injection E as -> -> -> ->. rewrite He, Hf, Hg, Hh. repeat split; field; exact E0.
Qed.

Definition y3 : list R := [1; 0; 2].
(** a completed one-component fit on 3 x 2 data, standardised: used as the
    concrete case of the theorems about [snipls_run] *)
Lemma case_run : exists f X0 y0, snipls_run env0 inv1 (1/2) 1 CMean SStd 3 2 X3 y3 f X0 y0 /\ nonzero_scores f.
Proof.
  destruct (one_component env0 inv1 (1/2) CMean SStd 3 2 X3 y3) as (f & Ef & Hz); try lia; try lra; try reflexivity.
  - apply X3_matrix.
  - left; reflexivity.
  - left; reflexivity.
  - apply inv1_ok.
  - destruct (fit_inv env0 inv1 (1/2) 1 CMean SStd 3 2 X3 y3 f) as (X0 & y0 & B & Rw & T & S1 & S2 & _); auto; try lia; [apply X3_matrix|].
    exists f, X0, y0. split; auto. split; [apply X3_matrix|]. repeat split; auto; lia.
Qed.
(** two-component fits over the rationals *)
Definition XA : list (list Q) := [[0; -(4); -(3)]; [-(2); 4; 2]]%Q.
Definition yA : list Q := [2; 1]%Q.
Definition XB : list (list Q) := [[1; 3]; [0; 4]]%Q.
Definition yB : list Q := [4; -9#4]%Q.
Example two_components : exists f,
  snipls_fit envQ invQ (1#5)%Q 2 CNone SNone XA yA = Ok f /\
  sn_retained f = [[0; 1; 2]; [0; 1; 2]]%nat /\ sn_colret f = Some [0; 1; 2]%nat /\
  map (fun a => Qeq_bool (vsqnorm (col a (sn_T f))) 0) [0; 1]%nat = [false; false] /\
  Qeq_bool (dot (col 0 (sn_T f)) (col 1 (sn_T f))) 0 = true /\
  map (map Qred) (sn_W f) = [[-1#5; -32#45]; [-8#15; 4#15]; [-8#15; 1#15]]%Q.
Proof. vm_compute. eexists. repeat split. Qed.

(* ------------------------------------------------------------------ *)
(** C32 *)
Theorem C32_scores_orthogonal : forall env inv eta k c s n p X y f X0 y0,
  snipls_run env inv eta k c s n p X y f X0 y0 -> nonzero_scores f ->
  forall a b, (a < k)%nat -> (b < k)%nat -> a <> b -> orthogonal (column a (sn_T f)) (column b (sn_T f)).
Proof. exact C32_l. Qed.
Print Assumptions C32_scores_orthogonal.
Definition C32_case := two_components.

(* ------------------------------------------------------------------ *)
(** C33 *)
Theorem C33_sparsity : forall env inv eta k c s n p X y f X0 y0,
  snipls_run env inv eta k c s n p X y f X0 y0 ->
  (length (sn_retained f) = k \/ (sn_retained f = [] /\ sn_colret f = None)) /\
  (forall a j, (S a < length (sn_retained f))%nat -> In j (nth a (sn_retained f) []) -> In j (nth (S a) (sn_retained f) [])) /\
  (forall g, sn_colret f = Some g -> g = nth (k - 1) (sn_retained f) []) /\
  (forall a j, (a < length (sn_retained f))%nat -> (j < p)%nat -> ~ In j (nth a (sn_retained f) []) ->
     cell (sn_W f) j a = 0 /\ cell (sn_P f) j a = 0) /\
  (forall j, (j < p)%nat -> (forall g, sn_colret f = Some g -> ~ In j g) ->
     nth j (sn_coef_scaled f) 0 = 0 /\ (nth j (sn_xsca f) 0 <> 0 -> nth j (sn_coef f) 0 = 0)).
Proof. exact C33_l. Qed.
Print Assumptions C33_sparsity.
Example C33_case : exists f, snipls_fit envQ invQ (9#10)%Q 1 CNone SNone XA yA = Ok f /\
  sn_colret f = Some [1; 2]%nat /\ map Qred (sn_coef f) = [0; -8#85; -8#85]%Q.
Proof. vm_compute. eexists. repeat split. Qed.

(* ------------------------------------------------------------------ *)
(** C34 *)
Theorem C34_exact : forall env inv eta k c s n p X y f X0 y0,
  snipls_run env inv eta k c s n p X y f X0 y0 -> nonzero_scores f ->
  forall a, (a < length (sn_retained f))%nat ->
  (forall j, In j (nth a (sn_retained f) []) <->
     ((0 < a)%nat /\ In j (nth (a - 1) (sn_retained f) [])) \/ passes f eta X0 y0 p a j) /\
  (forall j m, (j < p)%nat -> In j (nth a (sn_retained f) []) -> is_max (map (fun i => Rabs (residual_cov f X0 y0 a i)) (seq 0 p)) m ->
     cell (sn_W f) j a = (Rabs (residual_cov f X0 y0 a j) - eta * m) * sign_of (residual_cov f X0 y0 a j)
                         / sqrt (sum_of (map (fun i => residual_cov f X0 y0 a i * residual_cov f X0 y0 a i) (seq 0 p)))).
Proof. exact C34_exact_l. Qed.
Print Assumptions C34_exact.
Theorem C34_largest_kept : forall env inv eta k c s n p X y f X0 y0,
  snipls_run env inv eta k c s n p X y f X0 y0 -> nonzero_scores f ->
  0 <= eta < 1 -> forall a j, (a < length (sn_retained f))%nat -> (j < p)%nat ->
  (forall i, (i < p)%nat -> Rabs (residual_cov f X0 y0 a i) <= Rabs (residual_cov f X0 y0 a j)) ->
  residual_cov f X0 y0 a j <> 0 -> In j (nth a (sn_retained f) []).
Proof. exact C34_largest_l. Qed.
Print Assumptions C34_largest_kept.
Theorem C34_eta_zero : forall env inv k c s n p X y f X0 y0,
  snipls_run env inv 0 k c s n p X y f X0 y0 -> nonzero_scores f ->
  forall a j, (a < length (sn_retained f))%nat ->
  (In j (nth a (sn_retained f) []) <-> (j < p)%nat /\ exists b, (b <= a)%nat /\ residual_cov f X0 y0 b j <> 0).
Proof. exact C34_eta0_l. Qed.
Print Assumptions C34_eta_zero.
Theorem C34_eta_monotone : forall env inv eta eta' k k' c s n p X y f f' X0 y0,
  snipls_run env inv eta k c s n p X y f X0 y0 -> snipls_run env inv eta' k' c s n p X y f' X0 y0 ->
  nonzero_scores f -> nonzero_scores f' -> eta <= eta' -> (0 < length (sn_retained f))%nat -> (0 < length (sn_retained f'))%nat ->
  forall j, In j (nth 0 (sn_retained f') []) -> In j (nth 0 (sn_retained f) []).
Proof. exact C34_monotone_l. Qed.
Print Assumptions C34_eta_monotone.
Example C34_case : exists f, snipls_fit envQ invQ (9#10)%Q 1 CNone SNone XA yA = Ok f /\ sn_retained f = [[1; 2]]%nat /\
  exists f', snipls_fit envQ invQ 0%Q 1 CNone SNone XA yA = Ok f' /\ sn_retained f' = [[0; 1; 2]]%nat.
Proof. vm_compute. eexists. split; [reflexivity|]. split; [reflexivity|]. eexists. split; reflexivity. Qed.

(* ------------------------------------------------------------------ *)
(** C35 *)
Theorem C35_fitted_values : forall env inv eta k c s n p X y f X0 y0,
  snipls_run env inv eta k c s n p X y f X0 y0 ->
  snipls_predict f (A2 X) = Ok (sn_fitted f) /\
  length (sn_fitted f) = n /\ length (sn_resid f) = n /\
  (forall i, (i < n)%nat -> nth i (sn_fitted f) 0 + nth i (sn_resid f) 0 = nth i y 0) /\
  (c = CMean -> sum_of (sn_resid f) = 0) /\
  (c <> CMean -> c <> CNone -> is_median (sn_resid f) 0).
Proof. exact C35_l. Qed.
Print Assumptions C35_fitted_values.
Theorem C35_affine_and_errors : forall env inv eta k c s n p X y f X0 y0,
  snipls_run env inv eta k c s n p X y f X0 y0 ->
  exists b, length b = p /\
    (forall m Xn, is_matrix m p Xn -> (1 <= m)%nat ->
       snipls_predict f (A2 Xn) = Ok (map (fun r => inner r b + sn_intercept f) Xn)) /\
    (forall x, ncols (match x with A1 v => [v] | A2 Z => Z end) <> p <-> snipls_predict f x = Err ValueError).
Proof. exact C35_affine_l. Qed.
Print Assumptions C35_affine_and_errors.
Definition C35_case := case_run.

(* ------------------------------------------------------------------ *)
(** C36: true when the retained set does not grow after the first component *)
Theorem C36_transform_train : forall env inv eta k c s n p X y f X0 y0,
  snipls_run env inv eta k c s n p X y f X0 y0 -> nonzero_scores f -> inverse_ok inv ->
  sn_retained f <> [] ->
  (forall a j, (a < length (sn_retained f))%nat -> In j (nth a (sn_retained f) []) -> In j (nth 0 (sn_retained f) [])) ->
  snipls_transform f (A2 X) = Ok (sn_T f).
Proof. exact C36_l. Qed.
Print Assumptions C36_transform_train.
Example C36_case : exists f T, snipls_fit envQ invQ (1#5)%Q 2 CNone SNone XA yA = Ok f /\
  snipls_transform f (A2 XA) = Ok T /\ map (map Qred) T = map (map Qred) (sn_T f).
Proof. vm_compute. eexists. eexists. repeat split. Qed.
(** ... and false in general *)
Theorem C36_transform_train_refuted : exists f T,
  snipls_fit envQ invQ (4#5)%Q 2 CNone SNone XB yB = Ok f /\
  map (fun a => Qeq_bool (vsqnorm (col a (sn_T f))) 0) [0; 1]%nat = [false; false] /\
  sn_retained f = [[0]; [0; 1]]%nat /\
  snipls_transform f (A2 XB) = Ok T /\ ~ (mget T 0 1 == mget (sn_T f) 0 1)%Q.
Proof. vm_compute. eexists. eexists. split; [reflexivity|]. split; [reflexivity|]. split; [reflexivity|]. split; [reflexivity|]. discriminate. Qed.
Print Assumptions C36_transform_train_refuted.

(* ------------------------------------------------------------------ *)
(** C37 *)
Theorem C37_explained_variance : forall env inv eta k c s n p X y f X0 y0,
  snipls_run env inv eta k c s n p X y f X0 y0 -> nonzero_scores f ->
  Forall (fun v => 0 <= v) (sn_xev f) /\ sum_of (sn_xev f) <= 100 /\
  (sqlen y0 <> 0 -> Forall (fun v => 0 <= v) (sn_yev f) /\ sum_of (sn_yev f) <= 100 /\
     sum_of (sn_yev f) = 100 - 100 * sqlen (partial_residual y0 (sn_T f) (sn_C f) (length (sn_C f))) / sqlen y0).
Proof. exact C37_l. Qed.
Print Assumptions C37_explained_variance.
Example C37_case : exists f, snipls_fit envQ invQ (1#5)%Q 2 CNone SNone XA yA = Ok f /\ Qred (vsum (sn_yev f)) = 100%Q.
Proof. vm_compute. eexists. split; reflexivity. Qed.

(* ------------------------------------------------------------------ *)
(** C38 *)
Theorem C38_least_squares : forall env inv eta k c s n p X y f X0 y0,
  snipls_run env inv eta k c s n p X y f X0 y0 -> inverse_ok inv ->
  in_span (sn_W f) (sn_coef_scaled f) /\
  (forall b, in_span (sn_W f) b -> inner (vdiff y0 (fitted_by X0 (sn_coef_scaled f))) (fitted_by X0 b) = 0) /\
  (forall b, in_span (sn_W f) b -> sqlen (vdiff y0 (fitted_by X0 (sn_coef_scaled f))) <= sqlen (vdiff y0 (fitted_by X0 b))) /\
  (nonzero_scores f -> vdiff y0 (fitted_by X0 (sn_coef_scaled f)) = partial_residual y0 (sn_T f) (sn_C f) (length (sn_C f))).
Proof. exact C38_l. Qed.
Print Assumptions C38_least_squares.
Example C38_case : (exists f X0 y0, snipls_run env0 inv1 (1/2) 1 CMean SStd 3 2 X3 y3 f X0 y0 /\ nonzero_scores f) /\ inverse_ok inv1.
Proof. split; [apply case_run|apply inv1_ok]. Qed.

(* ------------------------------------------------------------------ *)
(** C88 *)
Theorem C88_one_component_total : forall env inv eta c s n p X y,
  is_matrix n p X -> (2 <= n)%nat -> (1 <= p)%nat -> length y = n ->
  plain_centre c -> plain_scale s -> 0 <= eta -> inverts_scalars inv ->
  exists f, snipls_fit env inv eta 1 c s X y = Ok f /\ nonzero_scores f.
Proof. exact one_component. Qed.
Print Assumptions C88_one_component_total.
Definition C88_case := case_run.

(* ------------------------------------------------------------------ *)
(** C89: a retained variable's weight has the sign of its covariance with the
    residual -- false once a previously retained variable drops below the
    threshold, and only then *)
Theorem C89_weight_sign_exact : forall env inv eta k c s n p X y f X0 y0,
  snipls_run env inv eta k c s n p X y f X0 y0 -> nonzero_scores f ->
  forall a j m, (a < length (sn_retained f))%nat -> (j < p)%nat -> In j (nth a (sn_retained f) []) ->
  is_max (map (fun i => Rabs (residual_cov f X0 y0 a i)) (seq 0 p)) m ->
  (cell (sn_W f) j a * residual_cov f X0 y0 a j < 0 <-> 0 < Rabs (residual_cov f X0 y0 a j) < eta * m).
Proof. exact C89_l. Qed.
Print Assumptions C89_weight_sign_exact.
Theorem C89_weight_sign_refuted : exists f,
  snipls_fit envQ invQ (1#5)%Q 2 CNone SNone XA yA = Ok f /\
  In 2%nat (nth 1 (sn_retained f) []) /\
  let r := vsub yA (vscale (nth 0 (sn_C f) 0%Q) (col 0 (sn_T f))) in
  (dot (col 2 XA) r * mget (sn_W f) 2 1 < 0)%Q.
Proof. vm_compute. eexists. split; [reflexivity|]. split; [auto|reflexivity]. Qed.
Print Assumptions C89_weight_sign_refuted.
