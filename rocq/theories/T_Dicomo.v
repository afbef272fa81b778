(** Property theorems C50-C61, C97-C102: (co-)moment statistics. *)

From Coq Require Import String Reals QArith List Arith ZArith Bool Lia Lra.
Import ListNotations.
From Verif Require Import Num Err Vec VecR OrdR L_Mat S_Stats L_Stats M_Utils M_Preproc M_Dicomo S_Dicomo
  L_Dicomo L_Dicomo2 L_Dicomo3 L_Dicomo4 L_Dicomo5 L_Dicomo6 L_Dicomo7 L_Energy L_Dicomo8 L_Dicomo9.
Import List. Open Scope R_scope.

(** concrete cases *)
Definition dcX {A} : dcor_env A := mk_dcor (fun _ _ => Err ValueError) (fun _ _ => Err ValueError).
Definition dst {A} (e m c : string) : dstate A := mk_dstate e m c None None None None.
Definition kwy {A} (y : arr A) : dkw A := mk_dkw (Some y) None None None None None None None None None.
Definition kwb {A} : dkw A := mk_dkw None None (Some true) None None None None None None None.
Definition kwn {A} (y : arr A) : dkw A := mk_dkw (Some y) None None None (Some "naive"%string) None None None None None.
Lemma nonconst3 : ~ constant [1; 2; 4]. Proof. intros H. specialize (H 1 2 ltac:(cbn; auto) ltac:(cbn; auto)). lra. Qed.
Lemma nonconst4 : ~ constant [1; 2; 4; 8]. Proof. intros H. specialize (H 1 2 ltac:(cbn; auto) ltac:(cbn; auto)). lra. Qed.

(* ------------------------------------------------------------------ *)
(** C50 *)
Theorem C50_variance : forall dc s xa x kw, configured s "arithmetic" "var" "mean" -> sample xa x -> no_trimming kw -> (2 <= length x)%nat ->
  exists v, fit_result dc s xa kw = Ok v /\
    v = (if biascorr kw then INR (length x) / (INR (length x) - 1) else 1) * variance_of x /\
    0 <= v /\ (v = 0 <-> constant x) /\
    forall a b xa', sample xa' (affine a b x) -> fit_result dc s xa' kw = Ok (a * a * v).
Proof. exact C50_l. Qed.
Print Assumptions C50_variance.
Example C50_case : configured (@dst R "arithmetic" "var" "mean") "arithmetic" "var" "mean" /\ sample (A1 [1;2;4]) [1;2;4] /\ no_trimming kwb /\ (2 <= length [1;2;4])%nat.
Proof. repeat split; try (left; reflexivity); cbn; lia. Qed.

(* ------------------------------------------------------------------ *)
(** C51 *)
Theorem C51_covariance : forall dc, exists C : bool -> list R -> list R -> R,
  (forall s xa x ya y kw, configured s "arithmetic" "cov" "mean" -> sample xa x -> no_trimming kw -> x <> [] ->
     k_y kw = Some ya -> sample ya y -> length y = length x -> fit_result dc s xa kw = Ok (C (biascorr kw) x y)) /\
  (forall s xa x kw, configured s "arithmetic" "var" "mean" -> sample xa x -> no_trimming kw -> x <> [] ->
     fit_result dc s xa kw = Ok (C (biascorr kw) x x)) /\
  (forall x y, length x = length y -> C false x y = covariance_of x y) /\
  (forall bc x y, length x = length y -> C bc x y = C bc y x) /\
  (forall bc x y a b, length x = length y -> x <> [] -> C bc (affine a b x) y = a * C bc x y) /\
  (forall bc x z y, length x = length y -> length z = length y -> C bc (plus_l x z) y = C bc x y + C bc z y).
Proof. exact C51_l. Qed.
Print Assumptions C51_covariance.
Example C51_case : exists v, snd (dicomo_fit dcX (dst "arithmetic" "cov" "mean") (A1 [1;2;6]%Q) (kwy (A1 [0;1;5]%Q))) = Ok v /\ Qred v = (14#3)%Q.
Proof. eexists. split; [vm_compute; reflexivity|]. vm_compute. reflexivity. Qed.

(* ------------------------------------------------------------------ *)
(** C52 *)
Theorem C52_correlation : forall dc, exists r : list R -> list R -> R,
  (forall s xa x ya y kw, configured s "arithmetic" "corr" "mean" -> sample xa x -> no_trimming kw -> k_order kw = None ->
     k_y kw = Some ya -> sample ya y -> length y = length x -> x <> [] -> ~ constant x -> ~ constant y ->
     fit_result dc s xa kw = Ok (r x y)) /\
  (forall x y, length x = length y -> x <> [] -> ~ constant x -> ~ constant y -> -1 <= r x y <= 1) /\
  (forall x, x <> [] -> ~ constant x -> forall a b, 0 < a -> r x (affine a b x) = 1) /\
  (forall x, x <> [] -> ~ constant x -> forall a b, a < 0 -> r x (affine a b x) = -1) /\
  (forall x y, length x = length y -> r x y = r y x) /\
  (forall x y a b, length x = length y -> x <> [] -> 0 < a -> r (affine a b x) y = r x y /\ r x (affine a b y) = r x y).
Proof. exact C52_l. Qed.
Print Assumptions C52_correlation.
Example C52_case : sample (A1 [1;2;4]) [1;2;4] /\ no_trimming (kwy (A1 [1;2;4])) /\ ~ constant [1;2;4].
Proof. split; [left; reflexivity|]. split; [left; reflexivity|apply nonconst3]. Qed.
(** with trimming the "correlation" leaves [-1,1] *)
Theorem C52_trimmed_refuted : exists v, 
  snd (dicomo_fit dcX (dst "arithmetic" "corr" "mean") (A1 [0;0;1;3]%Q) (mk_dkw (Some (A1 [-5;2;3;3]%Q)) (Some (1#4)%Q) None None None None None None None None)) = Ok v /\
  Qlt 1 v.
Proof. eexists. split; [vm_compute; reflexivity|]. vm_compute. reflexivity. Qed.
Print Assumptions C52_trimmed_refuted.
(** with center='median' it is unbounded and changes with the unit of x *)
Theorem C52_median_refuted : exists v w,
  snd (dicomo_fit dcX (dst "arithmetic" "corr" "median") (A1 [-14826;0;14826]%Q) (kwy (A1 [-29652;0;14826]%Q))) = Ok v /\
  snd (dicomo_fit dcX (dst "arithmetic" "corr" "median") (A1 [-59304;0;59304]%Q) (kwy (A1 [-29652;0;14826]%Q))) = Ok w /\
  Qlt 1 v /\ ~ Qeq v w.
Proof. do 2 eexists. split; [vm_compute; reflexivity|]. split; [vm_compute; reflexivity|]. split; [vm_compute; reflexivity|vm_compute; discriminate]. Qed.
Print Assumptions C52_median_refuted.

(* ------------------------------------------------------------------ *)
(** C53 *)
Theorem C53_bias_corrected : forall dc s xa x kw c, sample xa x -> no_trimming kw -> k_option kw = None -> biascorr kw = true -> x <> [] -> ~ constant x ->
  (configured s "arithmetic" "skew" c -> (3 <= length x)%nat ->
     fit_result dc s xa kw = Ok (sqrt (INR (length x) * (INR (length x) - 1)) / (INR (length x) - 2) * skewness x)) /\
  (configured s "arithmetic" "kurt" c -> (4 <= length x)%nat ->
     fit_result dc s xa kw = Ok ((INR (length x) - 1) / ((INR (length x) - 2) * (INR (length x) - 3)) *
        ((INR (length x) + 1) * (kurtosis x - 3) + 6) + (if match k_fisher kw with Some f => f | None => true end then 0 else 3))).
Proof. exact C53_l. Qed.
Print Assumptions C53_bias_corrected.
Theorem C53_plain : forall dc s xa x kw c, sample xa x -> no_trimming kw -> k_option kw = None -> biascorr kw = false -> x <> [] -> ~ constant x ->
  (configured s "arithmetic" "skew" c -> fit_result dc s xa kw = Ok (skewness x)) /\
  (configured s "arithmetic" "kurt" c -> fit_result dc s xa kw = Ok (kurtosis x)).
Proof. exact C53_plain_l. Qed.
Print Assumptions C53_plain.
Example C53_case : sample (A1 [1;2;4;8]) [1;2;4;8] /\ no_trimming kwb /\ k_option (@kwb R) = None /\ biascorr kwb = true /\ ~ constant [1;2;4;8] /\ (4 <= length [1;2;4;8])%nat.
Proof.
  split; [left; reflexivity|]. split; [left; reflexivity|]. split; [reflexivity|]. split; [reflexivity|]. split; [apply nonconst4|cbn; lia].
Qed.

(* ------------------------------------------------------------------ *)
(** C54: the square-root relation holds without bias correction and always
    fails with it; the standard deviation of a constant sample is NaN *)
Theorem C54_std : forall dc s s' xa x kw c, configured s "arithmetic" "std" c -> configured s' "arithmetic" "var" "mean" ->
  sample xa x -> no_trimming kw -> x <> [] -> ~ constant x ->
  exists d v, fit_result dc s xa kw = Ok d /\ fit_result dc s' xa kw = Ok v /\
    (biascorr kw = false -> d = sqrt v) /\
    (biascorr kw = true -> d = INR (length x) / (INR (length x) - 1) * sqrt (variance_of x) /\ d <> sqrt v).
Proof. exact C54_l. Qed.
Print Assumptions C54_std.
Theorem C54_constant_refuted : forall (dc : dcor_env XR) s s' x c, configured s "arithmetic" "std" c -> configured s' "arithmetic" "var" "mean" ->
  x <> [] -> constant x -> fit_result dc s' (A1 (map Fin x)) kw0 = Ok (Fin 0) /\ fit_result dc s (A1 (map Fin x)) kw0 = Ok NaN.
Proof. exact C54_constant_l. Qed.
Print Assumptions C54_constant_refuted.
Example C54_case : configured (@dst R "arithmetic" "std" "median") "arithmetic" "std" "median" /\ sample (A1 [1;2;4]) [1;2;4] /\ ~ constant [1;2;4] /\ constant [2;2].
Proof.
  split; [split; [|split]; reflexivity|]. split; [left; reflexivity|]. split; [apply nonconst3|].
  intros u v Hu Hv. cbn [In] in Hu, Hv. destruct Hu as [<-|[<-|[]]]; destruct Hv as [<-|[<-|[]]]; reflexivity.
Qed.

(* ------------------------------------------------------------------ *)
(** C55: fit keeps est and mode, and replaces center by 'mean' for six of the modes *)
Theorem C55_parameters : forall {A} `{Num A} (dc : dcor_env A) s x kw, let s' := fst (dicomo_fit dc s x kw) in
  d_est s' = d_est s /\ d_mode s' = d_mode s /\
  d_center s' = (if smem (d_mode s) ["std"; "skew"; "kurt"; "cos"; "M3"; "cok"]%string then "mean"%string else d_center s).
Proof. intros A H. exact C55_params_l. Qed.
Print Assumptions C55_parameters.
(** the value returned is the one a new object with the same parameters returns *)
Theorem C55_as_new : forall {A} `{Num A} (dc : dcor_env A) s snew x kw,
  dicomo_init (d_est s) (d_mode s) (d_center s) = Ok snew ->
  (d_est s = "arithmetic" /\ d_mode s <> "ballcov" \/ d_est s = "distance")%string ->
  snd (dicomo_fit dc s x kw) = snd (dicomo_fit dc snew x kw).
Proof.
  intros A H dc s snew x kw E Hd. destruct (C61_state_l _ _ _ _ E) as [E1 [E2 [E3 _]]].
  assert (E' : exists s0, dicomo_init (A:=A) (d_est s) (d_mode s) (d_center s) = Ok s0) by (exists snew; exact E).
  apply C61_l in E' as [_ [Hm [_ Hx]]]. apply C55_fresh_l; auto. unfold supported.
  destruct Hd as [[Ha Hb]|Ha]; rewrite Ha in *; cbn [String.eqb Ascii.eqb Bool.eqb andb orb].
  - rewrite orb_false_r. apply smem_iff. cbn [In] in Hm |- *.
    repeat (destruct Hm as [Hm|Hm]; [rewrite <- Hm in *; first [exfalso; apply Hx; split; reflexivity | exfalso; apply Hb; reflexivity | tauto]|]). contradiction.
  - apply smem_iff. cbn [In] in Hm |- *.
    repeat (destruct Hm as [Hm|Hm]; [rewrite <- Hm in *; tauto|]). contradiction.
Qed.
Print Assumptions C55_as_new.
(** est 'sign' and 'entropy' are accepted but compute nothing: fit returns what an earlier fit left, or fails *)
Theorem C55_sign_refuted : forall {A} `{Num A} (dc : dcor_env A) s x kw, (d_est s = "sign" \/ d_est s = "entropy")%string -> alen x <> 0%nat ->
  smem (d_mode s) ["corr"; "continuum"; "cos"; "cok"]%string = false ->
  snd (dicomo_fit dc s x kw) = match d_moment s with Some v => Ok v | None => Err AttributeError end.
Proof. intros A H. exact C55_sign_l. Qed.
Print Assumptions C55_sign_refuted.
(** the constructor parameter center is overwritten *)
Theorem C55_center_refuted : exists s, dicomo_init (A:=Q) "arithmetic" "std" "median" = Ok s /\
  d_center s = "median"%string /\ d_center (fst (dicomo_fit dcX s (A1 [1;2;3]%Q) kw0)) = "mean"%string.
Proof. eexists. split; [reflexivity|]. vm_compute. split; reflexivity. Qed.
Print Assumptions C55_center_refuted.
Example C55_case : exists s1 s2, dicomo_init (A:=Q) "arithmetic" "var" "mean" = Ok s1 /\
  set_param1 (fst (dicomo_fit dcX s1 (A1 [1;2;3]%Q) kw0)) "est" "sign" = Ok s2 /\
  is_ok (snd (dicomo_fit dcX s2 (A1 [5;5;5]%Q) kw0)) = true.
Proof. do 2 eexists. split; [reflexivity|]. split; [reflexivity|]. vm_compute. reflexivity. Qed.

(* ------------------------------------------------------------------ *)
(** C56 *)
Theorem C56_double_centring : forall n a t, is_matrix n n a -> (0 < n)%nat -> t = 0 ->
  exists out m, double_center_flex a "mean" t false = Ok (out, m) /\ is_matrix n n out /\
    (forall i j, (i < n)%nat -> (j < n)%nat -> cell out i j = dcentred n (cell a) i j) /\
    (forall i, (i < n)%nat -> sum_below n (fun j => cell out i j) = 0) /\
    (forall j, (j < n)%nat -> sum_below n (fun i => cell out i j) = 0).
Proof. exact C56_mean_l. Qed.
Print Assumptions C56_double_centring.
Theorem C56_u_centring : forall n a, is_matrix n n a -> (3 <= n)%nat ->
  (forall i j, (i < n)%nat -> (j < n)%nat -> cell a i j = cell a j i) -> (forall i, (i < n)%nat -> cell a i i = 0) ->
  exists out m, double_center_flex a "mean" 0 true = Ok (out, m) /\ is_matrix n n out /\
    (forall i, (i < n)%nat -> cell out i i = 0) /\
    (forall i j, (i < n)%nat -> (j < n)%nat -> cell out i j = cell out j i) /\
    (forall i, (i < n)%nat -> sum_below n (fun j => cell out i j) = 0) /\
    (forall i j, (i < n)%nat -> (j < n)%nat -> i <> j -> cell out i j =
       cell a i j - sum_below n (fun k => cell a i k) / (INR n - 2) - sum_below n (fun k => cell a k j) / (INR n - 2)
       + sum_below n (fun k => sum_below n (fun l => cell a k l)) / ((INR n - 1) * (INR n - 2))).
Proof. exact C56_u_l. Qed.
Print Assumptions C56_u_centring.
Definition D3 : list (list R) := [[0;1;2];[1;0;3];[2;3;0]].
Example C56_case : is_matrix 3 3 D3 /\ (forall i j, (i < 3)%nat -> (j < 3)%nat -> cell D3 i j = cell D3 j i) /\ (forall i, (i < 3)%nat -> cell D3 i i = 0).
Proof.
  split; [repeat constructor|]. split.
  - intros [|[|[|i]]] [|[|[|j]]] Hi Hj; try lia; reflexivity.
  - intros [|[|[|i]]] Hi; try lia; reflexivity.
Qed.

(* ------------------------------------------------------------------ *)
(** C57 *)
Theorem C57_distance_covariance : forall dc, exists C : nat -> list (list R) -> list (list R) -> R,
  (forall s kw n p q X Y, configured s "distance" "cov" "mean" -> no_trimming kw -> biascorr kw = false -> k_metric kw = None ->
     naive_mode kw -> is_matrix n p X -> is_matrix n q Y -> (0 < n)%nat -> k_y kw = Some (A2 Y) -> fit_result dc s (A2 X) kw = Ok (C n X Y)) /\
  (forall s kw n p X, configured s "distance" "var" "mean" -> no_trimming kw -> biascorr kw = false -> k_metric kw = None ->
     naive_mode kw -> is_matrix n p X -> (0 < n)%nat -> fit_result dc s (A2 X) kw = Ok (C n X X)) /\
  (forall n X Y, C n X Y = C n Y X) /\
  (forall n X Y, 0 <= C n X Y) /\
  (forall n p q X Y, is_matrix n p X -> is_matrix n q Y -> (0 < n)%nat -> C n X Y ^ 2 = dcov_sq n X Y) /\
  (forall n p c X Y, is_matrix n p X -> length c = p -> C n (translate c X) Y = C n X Y) /\
  (forall n p X Y, is_matrix n p X -> (0 < n)%nat -> constant_rows X -> C n X Y = 0) /\
  (forall n p a X Y, is_matrix n p X -> C n (scale_rows a X) Y = sqrt (Rabs a) * C n X Y).
Proof. exact C57_l. Qed.
Print Assumptions C57_distance_covariance.
Definition X33 : list (list R) := [[1;2];[3;5];[0;1]].
Lemma X33_matrix : is_matrix 3 2 X33. Proof. repeat constructor. Qed.
Example C57_case : naive_mode (kwn (A2 X33)) /\ no_trimming (kwn (A2 X33)) /\ is_matrix 3 2 X33.
Proof. split; [exists "naive"%string; split; [reflexivity|discriminate]|]. split; [left; reflexivity|apply X33_matrix]. Qed.

(* ------------------------------------------------------------------ *)
(** C58: what distance_moment computes: the entries are raised to powers of two,
    in place *)
Theorem C58_exact : forall n A B nn order opt, is_matrix n n A -> is_matrix n n B -> (0 < order)%nat ->
  exists A' B' v, distance_moment false A B nn "mean" 0 false order opt = Ok (A', B', v) /\
    is_matrix n n A' /\ is_matrix n n B' /\
    (forall i j, (i < n)%nat -> (j < n)%nat ->
       cell A' i j = cell A i j ^ (2 ^ (if (2 <? order)%nat then order - opt - 1 else 0)) /\
       cell B' i j = cell B i j ^ (2 ^ (if (2 <? order)%nat then opt - 1 else 0))) /\
    let w := if Nat.even order then v else - v in
    0 <= w /\ w ^ order = Rabs (sum_below n (fun i => sum_below n (fun j => cell A' i j * cell B' i j)) / (INR n * INR n)).
Proof. exact C58_l. Qed.
Print Assumptions C58_exact.
Theorem C58_order2 : forall n A B nn opt, is_matrix n n A -> is_matrix n n B ->
  distance_moment false A B nn "mean" 0 false 2 opt = Ok (A, B, sqrt (Rabs (sum_below n (fun i => sum_below n (fun j => cell A i j * cell B i j)) / (INR n * INR n)))).
Proof. exact C58_order2_l. Qed.
Print Assumptions C58_order2.
(** the exponents are order-option and option only when both are at most two *)
Theorem C58_exponents : forall order opt, (2 < order)%nat -> (1 <= opt < order)%nat ->
  (2 ^ (order - opt - 1) = order - opt /\ 2 ^ (opt - 1) = opt)%nat <-> (order - opt <= 2 /\ opt <= 2)%nat.
Proof. exact C58_exponents_l. Qed.
Print Assumptions C58_exponents.
Theorem C58_refuted : exists (A B A' B' : list (list R)) v, distance_moment false A B 1 "mean" 0 false 4 1 = Ok (A', B', v) /\
  A' <> A /\ v ^ 4 <> sum_below 1 (fun i => sum_below 1 (fun j => cell A i j ^ 3 * cell B i j)) / (INR 1 * INR 1).
Proof. exact C58_refuted_l. Qed.
Print Assumptions C58_refuted.
Example C58_case : is_matrix 3 3 D3 /\ (0 < 5)%nat. Proof. split; [repeat constructor|lia]. Qed.

(* ------------------------------------------------------------------ *)
(** C59 *)
Theorem C59_mdd : forall dc s kw n p X ya y, configured s "distance" "mdd" "mean" -> no_trimming kw -> biascorr kw = false ->
  is_matrix n p X -> (0 < n)%nat -> k_y kw = Some ya -> sample ya y -> length y = n ->
  exists v, fit_result dc s (A2 X) kw = Ok v /\ 0 <= v /\ v ^ 2 = mdd_sq n X y /\
    (p <> 1%nat \/ n = 1%nat -> MDDM X (map (fun u => [u]) y) = Ok [[v ^ 2]]).
Proof. exact C59_l. Qed.
Print Assumptions C59_mdd.
Theorem C59_mddm : forall n p q X Y, is_matrix n p X -> is_matrix n q Y -> (0 < n)%nat -> (2 <= p)%nat ->
  exists M, MDDM X Y = Ok M /\ is_matrix q q M /\
    (forall a b, (a < q)%nat -> (b < q)%nat -> cell M a b = mddm_entry n X Y a b) /\
    (forall a b, (a < q)%nat -> (b < q)%nat -> cell M a b = cell M b a) /\
    (forall v, length v = q -> 0 <= sum_below q (fun a => sum_below q (fun b => nth a v 0 * nth b v 0 * cell M a b))) /\
    (forall a b, (a < q)%nat -> (b < q)%nat -> constant (column_of Y a) -> cell M a b = 0).
Proof. exact C59_mddm_l. Qed.
Print Assumptions C59_mddm.
Example C59_case : configured (@dst R "distance" "mdd" "mean") "distance" "mdd" "mean" /\ is_matrix 3 2 X33 /\ sample (A1 [1;2;4]) [1;2;4].
Proof. repeat split; try apply X33_matrix. left. reflexivity. Qed.

(* ------------------------------------------------------------------ *)
(** C60 *)
Theorem C60_single_predictor_refuted : forall n q X Y, is_matrix n 1 X -> is_matrix n q Y -> (2 <= n)%nat -> MDDM X Y = Err ValueError.
Proof. exact C60_l. Qed.
Print Assumptions C60_single_predictor_refuted.
Example C60_case : is_matrix 2 1 [[1];[2]] /\ is_matrix 2 2 [[1;2];[3;4]]. Proof. split; repeat constructor. Qed.

(* ------------------------------------------------------------------ *)
(** C61 *)
Theorem C61_options : forall {A : Type} est mode center,
  (exists s, dicomo_init (A:=A) est mode center = Ok s) <->
  In est ["arithmetic"; "distance"; "sign"; "entropy"]%string /\
  In mode ["mom"; "var"; "std"; "skew"; "kurt"; "com"; "cov"; "cok"; "cos"; "corr"; "continuum"; "M3"; "mdd"; "ballcov"]%string /\
  In center ["mean"; "median"]%string /\ ~ (est = "arithmetic" /\ mode = "mdd")%string.
Proof. intros A. exact C61_l. Qed.
Print Assumptions C61_options.
Theorem C61_rejection : forall {A : Type} est mode center e, dicomo_init (A:=A) est mode center = Err e -> e = MyException.
Proof.
  intros A est mode center e. unfold dicomo_init. repeat match goal with |- context [if ?b then _ else _] => destruct b end; intros E; try discriminate; congruence.
Qed.
Print Assumptions C61_rejection.
Theorem C61_mdc_refuted : forall {A : Type} est center, dicomo_init (A:=A) est "mdc" center = Err MyException.
Proof. reflexivity. Qed.
Print Assumptions C61_mdc_refuted.
Example C61_case : exists s, dicomo_init (A:=R) "distance" "corr" "median" = Ok s. Proof. eexists. reflexivity. Qed.

(* ------------------------------------------------------------------ *)
(** C97 *)
Theorem C97_self : forall dc s s' xa x kw c c', sample xa x -> no_trimming kw -> k_option kw = None -> k_std kw = None -> k_fisher kw = None ->
  k_y kw = Some xa -> x <> [] -> ~ constant x ->
  (configured s "arithmetic" "cos" c -> configured s' "arithmetic" "skew" c' -> (biascorr kw = true -> (3 <= length x)%nat) ->
     fit_result dc s xa kw = fit_result dc s' xa kw) /\
  (configured s "arithmetic" "cok" c -> configured s' "arithmetic" "kurt" c' -> biascorr kw = false ->
     fit_result dc s xa kw = fit_result dc s' xa kw).
Proof. exact C97_self_l. Qed.
Print Assumptions C97_self.
Theorem C97_invariant : forall dc s xa x xa' ya y kw c a b, sample xa x -> sample xa' (affine a b x) -> no_trimming kw -> k_y kw = Some ya -> sample ya y ->
  k_std kw = None -> (match k_option kw with Some o => (o <= 3)%nat | None => True end) ->
  length y = length x -> x <> [] -> 0 < a ->
  (configured s "arithmetic" "cos" c -> fit_result dc s xa' kw = fit_result dc s xa kw) /\
  (configured s "arithmetic" "cok" c -> biascorr kw = false -> fit_result dc s xa' kw = fit_result dc s xa kw).
Proof. exact C97_invariant_l. Qed.
Print Assumptions C97_invariant.
(** with bias correction the co-kurtosis of a sample with itself is not its
    kurtosis, and it changes with the unit of measurement *)
Theorem C97_cok_biascorr_refuted : exists u v w,
  snd (dicomo_fit dcX (dst "arithmetic" "cok" "mean") (A1 [0;0;1;2;2]%Q) (mk_dkw (Some (A1 [0;0;1;2;2]%Q)) None (Some true) None None None None None None None)) = Ok u /\
  snd (dicomo_fit dcX (dst "arithmetic" "kurt" "mean") (A1 [0;0;1;2;2]%Q) kwb) = Ok v /\
  snd (dicomo_fit dcX (dst "arithmetic" "cok" "mean") (A1 [0;0;2;4;4]%Q) (mk_dkw (Some (A1 [0;0;1;2;2]%Q)) None (Some true) None None None None None None None)) = Ok w /\
  ~ Qeq u v /\ ~ Qeq u w.
Proof. do 3 eexists. do 3 (split; [vm_compute; reflexivity|]). split; vm_compute; discriminate. Qed.
Print Assumptions C97_cok_biascorr_refuted.
Example C97_case : sample (A1 [1;2;4]) [1;2;4] /\ sample (A1 (affine 2 1 [1;2;4])) (affine 2 1 [1;2;4]) /\ ~ constant [1;2;4].
Proof. split; [left; reflexivity|]. split; [left; reflexivity|apply nonconst3]. Qed.

(* ------------------------------------------------------------------ *)
(** C98 *)
Theorem C98_continuum : forall dc s xa x ya y kw, configured s "arithmetic" "continuum" "mean" -> sample xa x -> no_trimming kw -> (2 <= length x)%nat -> ~ constant x ->
  k_y kw = Some ya -> sample ya y -> length y = length x -> k_order kw = None ->
  exists v cov, fit_result dc s xa kw = Ok v /\ cov = (if biascorr kw then INR (length x) / (INR (length x) - 1) else 1) * covariance_of x y /\ 0 <= v /\
    (k_alpha kw = None \/ k_alpha kw = Some 1 -> v = cov * cov) /\
    (forall a b xa', 0 < a -> sample xa' (affine a b x) ->
       fit_result dc s xa' kw = Ok (Rpower a (1 + match k_alpha kw with Some al => al | None => 1 end) * v)).
Proof. exact C98_l. Qed.
Print Assumptions C98_continuum.
Example C98_case : exists v, snd (dicomo_fit dcX (dst "arithmetic" "continuum" "mean") (A1 [1;2;6]%Q) (kwy (A1 [0;1;5]%Q))) = Ok v /\ Qred v = (196#9)%Q.
Proof. eexists. split; [vm_compute; reflexivity|]. vm_compute. reflexivity. Qed.

(* ------------------------------------------------------------------ *)
(** C99: the two algorithms agree *)
Theorem C99_fast_is_naive : forall dc s kw kw' n p q X Y, dcor_exact dc -> no_trimming kw -> biascorr kw = false -> k_metric kw = None -> naive_mode kw -> 
  no_trimming kw' -> biascorr kw' = false -> k_metric kw' = None -> fast_mode kw' -> is_matrix n p X -> is_matrix n q Y -> (0 < n)%nat ->
  (configured s "distance" "var" "mean" -> fit_result dc s (A2 X) kw' = fit_result dc s (A2 X) kw) /\
  (configured s "distance" "cov" "mean" -> k_y kw = Some (A2 Y) -> k_y kw' = Some (A2 Y) -> fit_result dc s (A2 X) kw' = fit_result dc s (A2 X) kw).
Proof. exact C99_l. Qed.
Print Assumptions C99_fast_is_naive.
Definition dcE : dcor_env R := mk_dcor (fun a b => match a, b with A2 X, A2 Y => Ok (dcov_sq (length X) X Y) | _, _ => Err ValueError end) (fun _ _ => Err ValueError).
Example C99_case : dcor_exact dcE /\ naive_mode (kwn (A2 X33)) /\ fast_mode (kwy (A2 X33)).
Proof.
  split; [|split; [exists "naive"%string; split; [reflexivity|discriminate]|left; reflexivity]].
  intros n p q X Y [H1 _] _ _. cbn [dc_v dcE]. rewrite H1. reflexivity.
Qed.

(* ------------------------------------------------------------------ *)
(** C100 *)
Theorem C100_distance_correlation : forall dc, exists r : nat -> list (list R) -> list (list R) -> R,
  (forall s kw n p q X Y, configured s "distance" "corr" "mean" -> no_trimming kw -> biascorr kw = false -> k_metric kw = None ->
     naive_mode kw -> is_matrix n p X -> is_matrix n q Y -> (0 < n)%nat -> k_y kw = Some (A2 Y) -> k_order kw = None ->
     fit_result dc s (A2 X) kw = Ok (r n X Y)) /\
  (forall n X Y, (0 < n)%nat -> dcov_sq n X X <> 0 -> dcov_sq n Y Y <> 0 -> 0 <= r n X Y <= 1) /\
  (forall n X, (0 < n)%nat -> dcov_sq n X X <> 0 -> r n X X = 1) /\
  (forall n X Y, r n X Y = r n Y X) /\
  (forall n p X Y a c, is_matrix n p X -> length c = p -> a <> 0 -> r n (translate c (scale_rows a X)) Y = r n X Y).
Proof. exact C100_l. Qed.
Print Assumptions C100_distance_correlation.
Example C100_case : dcov_sq 2 [[0];[1]] [[0];[1]] <> 0.
Proof.
  assert (R01 : rowdist [[0];[1]] 0 1 = 1 /\ rowdist [[0];[1]] 1 0 = 1 /\ rowdist [[0];[1]] 0 0 = 0 /\ rowdist [[0];[1]] 1 1 = 0).
  { unfold rowdist, edist. cbn [nth]. repeat split; cbn; [replace ((0 - 1) * (0 - 1) + 0) with 1 by ring|replace ((1 - 0) * (1 - 0) + 0) with 1 by ring|
      replace ((0 - 0) * (0 - 0) + 0) with 0 by ring|replace ((1 - 1) * (1 - 1) + 0) with 0 by ring]; auto using sqrt_1, sqrt_0. }
  destruct R01 as [E1 [E2 [E3 E4]]]. unfold dcov_sq, dcentred. cbn [sum_below]. rewrite E1, E2, E3, E4. cbn. lra.
Qed.

(* ------------------------------------------------------------------ *)
(** C101: distance statistics are never the square root of a negative number *)
Theorem C101_nonnegative : forall n p q X Y y, is_matrix n p X -> is_matrix n q Y -> (0 < n)%nat -> length y = n -> 0 <= dcov_sq n X Y /\ 0 <= mdd_sq n X y.
Proof. intros n p q X Y y HX HY Hn Hl. split; [exact (dcov_sq_nonneg n p q X Y HX HY Hn)|exact (mdd_sq_nonneg n p X y HX Hn Hl)]. Qed.
Print Assumptions C101_nonnegative.
Example C101_case : is_matrix 3 2 X33 /\ is_matrix 3 3 D3 /\ length [1;2;4] = 3%nat. Proof. split; [apply X33_matrix|]. split; [repeat constructor|reflexivity]. Qed.

(* ------------------------------------------------------------------ *)
(** C102 *)
Theorem C102_moments : forall dc s xa x kw k o, configured s "arithmetic" "mom" "mean" -> sample xa x -> no_trimming kw -> x <> [] ->
  k_order kw = Some k -> match k_option kw with Some i => i | None => 1%nat end = o -> (o <= k)%nat -> biascorr kw = false ->
  fit_result dc s xa kw = (match k with O => Err AttributeError | 1%nat => Ok (mean_of x) | _ => Ok (cmoment k x) end).
Proof. exact C102_mom_l. Qed.
Print Assumptions C102_moments.
Theorem C102_comoments : forall dc s xa x ya y kw k o, configured s "arithmetic" "com" "mean" -> sample xa x -> no_trimming kw -> x <> [] ->
  k_y kw = Some ya -> sample ya y -> length y = length x ->
  k_order kw = Some k -> match k_option kw with Some i => i | None => 1%nat end = o -> (o <= k)%nat -> (2 <= k)%nat -> biascorr kw = false ->
  fit_result dc s xa kw = Ok (if (k =? 2)%nat then covariance_of x y else comoment (k - o) o x y).
Proof. exact C102_com_l. Qed.
Print Assumptions C102_comoments.
Example C102_case : exists v, snd (dicomo_fit dcX (dst "arithmetic" "com" "mean") (A1 [1;2;6]%Q) (mk_dkw (Some (A1 [0;1;5]%Q)) None None None None (Some 5%nat) (Some 2%nat) None None None)) = Ok v /\ Qred v = 70%Q.
Proof. eexists. split; [vm_compute; reflexivity|]. vm_compute. reflexivity. Qed.
