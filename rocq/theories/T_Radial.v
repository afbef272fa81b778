(** Property theorems C19-C24: generalised spatial signs. *)

From Coq Require Import Reals QArith List Arith ZArith Bool Lia Lra Permutation Sorted.
Import ListNotations.
From Verif Require Import Num Err Vec VecR OrdR L_Mat S_Stats S_Radial L_Stats M_Utils M_Preproc M_Robcent M_Gsspp
  L_Scaling L_Scaling2 L_Lin L_Preproc L_Radial T_Scaling.
Open Scope R_scope.

(* ------------------------------------------------------------------ *)
(** C19.  [m] is the centre fitted by VersatileScaler; [radial_rule f] is the
    published rule of the radial function (S_Radial.v) applied to the distances
    of the cases to the centre. *)

Theorem C19_rows : forall (env : prep_env R) c f n p X m st, is_matrix n p X -> (2 <= n)%nat -> (1 <= p)%nat ->
  documented_radial f -> (p <= n)%nat \/ f = SS -> c <> CNone ->
  sc_fit env (new_scaler c SNone 0) (A2 X) = (st, Ok tt) -> a_center st = Some m -> length m = p ->
  exists Z xi, gen_ss_pp env c (FStr f) (A2 X) = Ok Z /\
    snd (gss_fit_transform env (new_gss c (FStr f)) (A2 X)) = Ok Z /\
    is_matrix n p Z /\ length xi = n /\
    (forall i j, (i < n)%nat -> (j < p)%nat -> cell Z i j = nth i xi 0 * (cell X i j - nth j m 0)) /\
    radial_rule f n p (map (fun r => edist r m) X) xi /\
    (f <> SS -> forall i, (i < n)%nat -> 0 <= nth i xi 0 <= 1).
Proof. exact C19_rows_l. Qed.
Print Assumptions C19_rows.

Theorem C19_factors : forall f dd p n xi, length dd = n -> Forall (fun d => 0 <= d) dd -> (1 <= p <= n)%nat ->
  (f = Quad \/ f = Winsor \/ f = Ball \/ f = Shell \/ f = LinRed) ->
  radial_fun (A:=R) f dd p n = Ok xi -> forall i, (i < n)%nat -> 0 <= nth i xi 0 <= 1.
Proof. exact C19_unit_l. Qed.
Print Assumptions C19_factors.

Example C19_case : exists st m, sc_fit env0 (new_scaler CMean SNone 0) (A2 X3) = (st, Ok tt) /\
  a_center st = Some m /\ length m = 2%nat.
Proof.
  destruct (X3_fit CMean SNone) as [st E]; [left; auto|right; right; auto|].
  destruct (C01_fit_lengths env0 (new_scaler CMean SNone 0) st 3 2 X3 X3_matrix ltac:(lia) (or_introl eq_refl) (or_intror (or_intror (or_intror eq_refl))) E) as (m & s & Hm & _ & _ & _ & Hl & _).
  exists st, m. auto.
Qed.
(** norms 5, 5, 5, 15, 0: the cut-off is the fourth smallest, 5 *)
Example C19_case2 : gen_ss_pp envQ CMean (FStr Winsor) (A2 [[3; 4]; [3; 4]; [3; 4]; [-9; -12]; [0; 0]])%Q
  = Ok [[3; 4]; [3; 4]; [3; 4]; [-3; -4]; [0; 0]]%Q.
Proof. vm_compute. reflexivity. Qed.

(* ------------------------------------------------------------------ *)
(** C20 *)

Theorem C20_rules : forall dd p n, length dd = n -> Forall (fun d => 0 <= d) dd -> (1 <= p <= n)%nat ->
  (exists xi, radial_fun Quad dd p n = Ok xi /\ length xi = n /\ quad_rule n p dd xi) /\
  (exists xi, radial_fun Winsor dd p n = Ok xi /\ length xi = n /\ winsor_rule n p dd xi) /\
  (exists xi, radial_fun Ball dd p n = Ok xi /\ length xi = n /\ ball_rule n p dd xi) /\
  (exists xi, radial_fun Shell dd p n = Ok xi /\ length xi = n /\ shell_rule n p dd xi) /\
  (exists xi, radial_fun LinRed dd p n = Ok xi /\ length xi = n /\ linred_rule n p dd xi) /\
  (exists xi, radial_fun SS dd p n = Ok xi /\ length xi = n /\ ss_rule n p dd xi).
Proof. exact C20_rules_l. Qed.
Print Assumptions C20_rules.

Theorem C20_antitone : forall f dd p n xi, length dd = n -> Forall (fun d => 0 <= d) dd -> (1 <= p <= n)%nat ->
  (f = Quad \/ f = Winsor \/ f = Ball \/ f = LinRed) -> radial_fun (A:=R) f dd p n = Ok xi ->
  forall i j, (i < n)%nat -> (j < n)%nat -> nth i dd 0 <= nth j dd 0 -> nth j xi 0 <= nth i xi 0.
Proof. exact C20_antitone_l. Qed.
Print Assumptions C20_antitone.

(** cut-off position (4+1+1)/2-1 = 2, so the cut-off is the third smallest norm *)
Example C20_case : radial_fun Winsor [1; 4; 2; 3]%Q 1 4 = Ok [1; 3#4; 1; 1]%Q /\
                   radial_fun Quad [1; 4; 2; 3]%Q 1 4 = Ok [1; 9#16; 1; 1]%Q.
Proof. split; vm_compute; reflexivity. Qed.

(* ------------------------------------------------------------------ *)
(** C21 *)

Theorem C21_more_columns : forall f dd p n, length dd = n -> (1 <= n)%nat -> (n < p)%nat ->
  (f = Quad \/ f = Winsor \/ f = Ball \/ f = Shell \/ f = LinRed) -> radial_fun (A:=R) f dd p n = Err IndexError.
Proof. exact C21_too_few_l. Qed.
Print Assumptions C21_more_columns.

Theorem C21_enough_rows : forall f dd p n, length dd = n -> Forall (fun d => 0 <= d) dd -> (1 <= p <= n)%nat ->
  (f = Quad \/ f = Winsor \/ f = Ball \/ f = Shell \/ f = LinRed) ->
  exists xi, radial_fun (A:=R) f dd p n = Ok xi /\ length xi = n.
Proof. exact C21_enough_l. Qed.
Print Assumptions C21_enough_rows.

Example C21_case : gen_ss_pp envQ CMean (FStr LinRed) (A2 [[1; 2; 3]; [4; 5; 7]])%Q = Err IndexError.
Proof. vm_compute. reflexivity. Qed.

(* ------------------------------------------------------------------ *)
(** C22 *)

Theorem C22_unit_rows : forall (env : prep_env R) c n p X m st, is_matrix n p X -> (2 <= n)%nat -> (1 <= p)%nat -> c <> CNone ->
  sc_fit env (new_scaler c SNone 0) (A2 X) = (st, Ok tt) -> a_center st = Some m -> length m = p ->
  exists Z, gen_ss_pp env c (FStr SS) (A2 X) = Ok Z /\ is_matrix n p Z /\
    forall i, (i < n)%nat ->
      (exists a, 0 < a /\ forall j, (j < p)%nat -> cell Z i j = a * (cell X i j - nth j m 0)) /\
      (1 / 10000000000 <= edist (nth i X []) m -> sqlen (nth i Z []) = 1) /\
      (edist (nth i X []) m < 1 / 10000000000 -> sqlen (nth i Z []) < 1).
Proof. exact C22_unit_l. Qed.
Print Assumptions C22_unit_rows.

Example C22_case : gen_ss_pp envQ CMean (FStr SS) (A2 [[3; 4]; [-3; -4]; [0; 0]])%Q
  = Ok [[3#5; 4#5]; [-3#5; -4#5]; [0; 0]]%Q.
Proof. vm_compute. reflexivity. Qed.

(** the plain spatial sign, without centring *)
Theorem C22_spatial_sign : forall n p X i, is_matrix n p X -> (i < n)%nat -> sqlen (nth i X []) <> 0 ->
  is_matrix n p (spatial_sign X) /\ sqlen (nth i (spatial_sign X) []) = 1 /\
  (exists a, 0 < a /\ forall j, (j < p)%nat -> cell (spatial_sign X) i j = a * cell X i j) /\
  nth i (spatial_sign (spatial_sign X)) [] = nth i (spatial_sign X) [].
Proof. exact C22_sign_l. Qed.
Print Assumptions C22_spatial_sign.
Example C22_sign_case : is_matrix 2 2 [[3; 4]; [0; 0]] /\ sqlen (nth 0 [[3; 4]; [0; 0]] []) <> 0.
Proof. split; [split; [reflexivity|repeat constructor]|cbn; lra]. Qed.

(* ------------------------------------------------------------------ *)
(** C23.  A function name is never accepted; for p >= 2 and n <> p a ValueError;
    otherwise an n x n matrix of element-wise products. *)

Theorem C23_behaviour : forall (env : prep_env R) c f n p X m st, is_matrix n p X -> (2 <= n)%nat -> (1 <= p)%nat ->
  documented_radial f -> (p <= n)%nat \/ f = SS -> c <> CNone ->
  sc_fit env (new_scaler c SNone 0) (A2 X) = (st, Ok tt) -> a_center st = Some m -> length m = p ->
  gen_ss_covmat env c (FStr f) (A2 X) = Err TypeError /\
  ((2 <= p)%nat -> n <> p -> gen_ss_covmat env c (FCall f) (A2 X) = Err ValueError) /\
  exists Z, gen_ss_pp env c (FCall f) (A2 X) = Ok Z /\ is_matrix n p Z /\
    (p = n -> exists W, gen_ss_covmat env c (FCall f) (A2 X) = Ok W /\ is_matrix n n W /\
       forall i j, (i < n)%nat -> (j < n)%nat -> cell W i j = cell Z j i * cell Z i j / INR n) /\
    (p = 1%nat -> exists W, gen_ss_covmat env c (FCall f) (A2 X) = Ok W /\ is_matrix n n W /\
       forall i j, (i < n)%nat -> (j < n)%nat -> cell W i j = cell Z j 0 * cell Z i 0 / INR n).
Proof. exact C23_behaviour_l. Qed.
Print Assumptions C23_behaviour.

(** for 2 x 2 data the result is not (1/n) Z'Z *)
Theorem C23_covariance_refuted : exists (X Z W : list (list Q)),
  gen_ss_pp envQ CMean (FCall SS) (A2 X) = Ok Z /\
  gen_ss_covmat envQ CMean (FCall SS) (A2 X) = Ok W /\
  ~ (mget W 0 0 == (mget Z 0 0 * mget Z 0 0 + mget Z 1 0 * mget Z 1 0) / 2)%Q.
Proof.
  exists [[3; 4]; [-3; -4]]%Q. eexists; eexists. split; [vm_compute; reflexivity|]. split; [vm_compute; reflexivity|].
  vm_compute. discriminate.
Qed.
Print Assumptions C23_covariance_refuted.

(* ------------------------------------------------------------------ *)
(** C24 *)

(** whatever is passed to transform, the result of fit_transform comes back *)
Theorem C24_argument_ignored : forall (env : prep_env R) c f X Z x,
  snd (gss_fit_transform env (new_gss c f) X) = Ok Z ->
  gss_transform (fst (gss_fit_transform env (new_gss c f) X)) x = Ok Z.
Proof. exact C24_returned_l. Qed.
Print Assumptions C24_argument_ignored.

(** the transformed new data would be [[3/5;4/5]...]; the training result is
    returned, with the number of rows of the training data *)
Theorem C24_transform_refuted : exists (X Xn Z : list (list Q)) st,
  gss_fit envQ (new_gss CMean (FStr SS)) (A2 X) = (st, Ok tt) /\
  gss_transform st (A2 Xn) = Ok Z /\ length Xn <> length Z.
Proof.
  exists [[3; 4]; [-3; -4]]%Q, [[1; 1]; [0; 0]; [5; 2]]%Q. eexists; eexists.
  split; [vm_compute; reflexivity|]. split; [vm_compute; reflexivity|]. vm_compute. discriminate.
Qed.
Print Assumptions C24_transform_refuted.
