(** Theorems about the co-moment analysis projection index (capi). *)

From Coq Require Import String Reals QArith List Arith ZArith Bool Lia Lra.
Import List. Import ListNotations.
From Verif Require Import Num Err Vec S_Stats M_Utils M_Dicomo S_Dicomo M_Capi S_Capi L_Capi.
Import List. Open Scope R_scope.

Definition dcX : dcor_env Q := mk_dcor (fun _ _ => Err ValueError) (fun _ _ => Err ValueError).

(* ------------------------------------------------------------------ *)
(** C62 *)
Theorem C62_all : forall St (pi : pindex R St) inv x y kw V, answers pi inv x y kw V ->
  forall s m0 w0 w1 w2 w3 w4 w5 rest, inv m0 (c_most s) -> (2 <= c_max s <= 4)%Z -> c_weights s = [w0;w1;w2;w3;w4;w5] ->
  (c_options s = None \/ c_options s = Some (1 :: 2 :: 3 :: rest)%Z) ->
  let v := fun i j => V (mode_at (c_scaling s) i) i j in
  snd (capi_fit pi s x y kw) = Ok (w0 * v 2%Z 1%Z
    + (if (3 <=? c_max s)%Z then w1 * v 3%Z 1%Z + w2 * v 3%Z 2%Z else 0)
    + (if (4 <=? c_max s)%Z then w3 * v 4%Z 1%Z + w4 * v 4%Z 2%Z + w5 * v 4%Z 3%Z else 0)).
Proof.
  intros St pi inv x y kw V HA s m0 w0 w1 w2 w3 w4 w5 rest Hm Hd Hw Ho.
  destruct (C62_gen_l pi inv x y kw V HA s m0 w0 w1 w2 w3 w4 w5 rest Hm Hd Hw Ho) as [m' [ms [E _]]]. rewrite E. reflexivity.
Qed.
Print Assumptions C62_all.
Theorem C62_dicomo : forall dc est mode center s xa x ya y kw w0 w1 w2 w3 w4 w5, sample xa x -> sample ya y -> length y = length x -> x <> [] ->
  no_trimming kw -> biascorr kw = false -> (k_std kw = None \/ k_std kw = Some true) -> (k_fisher kw = None \/ k_fisher kw = Some true) ->
  d_est (c_most s) = "arithmetic"%string -> d_center (c_most s) = "mean"%string ->
  c_options s = None -> (2 <= c_max s <= 4)%Z -> c_weights s = [w0;w1;w2;w3;w4;w5] ->
  let cm := if c_scaling s then std_comoment else comoment in
  snd (capi_fit (dicomo_index dc est mode center) s xa ya kw) =
    Ok (w0 * covariance_of x y
        + (if (3 <=? c_max s)%Z then w1 * cm 2%nat 1%nat x y + w2 * cm 1%nat 2%nat x y else 0)
        + (if (4 <=? c_max s)%Z then w3 * cm 3%nat 1%nat x y + w4 * cm 2%nat 2%nat x y + w5 * cm 1%nat 3%nat x y else 0)).
Proof. intros dc est mode center s xa x ya y kw w0 w1 w2 w3 w4 w5 H1 H2 H3 H4 H5 H6 [H7|H7] [H8|H8]; apply C62_dicomo_l; auto; rewrite ?H7, ?H8; reflexivity. Qed.
Print Assumptions C62_dicomo.
Theorem C62_prefix : forall St (pi : pindex R St) inv x y kw V, answers pi inv x y kw V ->
  forall s m0 w0 w1 w2 w3 w4 w5, inv m0 (c_most s) -> (2 <= c_max s <= 4)%Z -> c_weights s = [w0;w1;w2;w3;w4;w5] ->
  let v := fun i j => V (mode_at (c_scaling s) i) i j in
  (c_options s = Some [1]%Z -> snd (capi_fit pi s x y kw) = Ok (w0 * v 2%Z 1%Z
     + (if (3 <=? c_max s)%Z then w1 * v 3%Z 1%Z else 0) + (if (4 <=? c_max s)%Z then w3 * v 4%Z 1%Z else 0))) /\
  (c_options s = Some [1;2]%Z -> snd (capi_fit pi s x y kw) = Ok (w0 * v 2%Z 1%Z
     + (if (3 <=? c_max s)%Z then w1 * v 3%Z 1%Z + w2 * v 3%Z 2%Z else 0) + (if (4 <=? c_max s)%Z then w3 * v 4%Z 1%Z + w4 * v 4%Z 2%Z else 0))).
Proof.
  intros St pi inv x y kw V HA s m0 w0 w1 w2 w3 w4 w5 Hm Hd Hw. split; intros Ho.
  - exact (C62_one_l pi inv x y kw V HA s m0 w0 w1 w2 w3 w4 w5 Hm Hd Hw Ho).
  - exact (C62_two_l pi inv x y kw V HA s m0 w0 w1 w2 w3 w4 w5 Hm Hd Hw Ho).
Qed.
Print Assumptions C62_prefix.
(** options=[2]: the covariance gets the weight of the first co-skewness;
    options=[2,1]: the covariance is overwritten and does not enter at all *)
Theorem C62_options_refuted : forall St (pi : pindex R St) inv x y kw V, answers pi inv x y kw V ->
  forall s m0 w0 w1 w2 w3 w4 w5, inv m0 (c_most s) -> c_max s = 3%Z -> c_weights s = [w0;w1;w2;w3;w4;w5] ->
  let v := fun i j => V (mode_at (c_scaling s) i) i j in
  (c_options s = Some [2]%Z -> snd (capi_fit pi s x y kw) = Ok (w1 * v 2%Z 2%Z + w2 * v 3%Z 2%Z)) /\
  (c_options s = Some [2;1]%Z -> snd (capi_fit pi s x y kw) = Ok (w1 * v 3%Z 1%Z + w2 * v 3%Z 2%Z)).
Proof. intros St pi inv x y kw V HA. exact (C62_second_l pi inv x y kw V HA). Qed.
Print Assumptions C62_options_refuted.
(** options=[0] at degree 2: the value is stored in the last slot (moments[-1]) and
    gets the weight of the last co-kurtosis *)
Theorem C62_option_zero_refuted : forall St (pi : pindex R St) s x y kw w0 w1 w2 w3 w4 w5 m1 m2 v, c_max s = 2%Z -> c_options s = Some [0]%Z -> c_weights s = [w0;w1;w2;w3;w4;w5] ->
  pi_mode pi (c_most s) (mode_at (c_scaling s) 2) = Ok m1 -> pi_fit pi m1 x y 2 0 kw = (m2, Ok v) -> snd (capi_fit pi s x y kw) = Ok (w5 * v).
Proof. exact C62_zero_l. Qed.
Print Assumptions C62_option_zero_refuted.
Example C62_zero_case : exists s v, capi_init (dicomo_index dcX "arithmetic" "mom" "mean") 2 [1;10;100;1000;10000;100000]%Q false (Some [0]%Z) = Ok s /\
  snd (capi_fit (dicomo_index dcX "arithmetic" "mom" "mean") s (A1 [0;0;3]%Q) (A1 [0;3;0]%Q) kw0) = Ok v /\ Qred v = (-100000)%Q.
Proof. do 2 eexists. split; [reflexivity|]. split; [vm_compute; reflexivity|]. vm_compute. reflexivity. Qed.
Example C62_case : answers (dicomo_index (mk_dcor (fun _ _ => Err ValueError) (fun _ _ => Err ValueError)) "arithmetic" "mom" "mean") dinv (A1 [1;2;4]) (A1 [0;1;5]) kw0 (dval [1;2;4] [0;1;5])
  /\ exists s, capi_init (dicomo_index (A:=R) (mk_dcor (fun _ _ => Err ValueError) (fun _ _ => Err ValueError)) "arithmetic" "mom" "mean") 4 [1;1;1;-1;-1;-1] true None = Ok s
       /\ dinv "mom" (c_most s) /\ (2 <= c_max s <= 4)%Z.
Proof.
  split.
  - apply dicomo_answers; try reflexivity; try discriminate; left; reflexivity.
  - eexists. split; [reflexivity|]. split; [repeat split|cbn; lia].
Qed.
Example C62_case_value : exists s v, capi_init (dicomo_index dcX "arithmetic" "mom" "mean") 4 [1;10;100;1000;10000;100000]%Q false None = Ok s /\
  snd (capi_fit (dicomo_index dcX "arithmetic" "mom" "mean") s (A1 [0;0;3]%Q) (A1 [0;3;0]%Q) kw0) = Ok v /\ Qred v = (-273111)%Q.
Proof. do 2 eexists. split; [reflexivity|]. split; [vm_compute; reflexivity|]. vm_compute. reflexivity. Qed.

(* ------------------------------------------------------------------ *)
(** C63 *)
Theorem C63_constructor : forall A (HN : Num A) St (pi : pindex A St) m d w sc o, pi_new pi = Ok m ->
  (capi_init pi d w sc o = Err ValueError <-> (4 < d)%Z) /\
  ((d <= 4)%Z -> exists s, capi_init pi d w sc o = Ok s /\ c_max s = d /\ c_most s = m /\ c_weights s = w /\ c_scaling s = sc /\ c_options s = o).
Proof. intros A HN St pi. exact (C63_init_l pi). Qed.
Print Assumptions C63_constructor.
Theorem C63_fit : forall St (pi : pindex R St) inv x y kw V, answers pi inv x y kw V ->
  forall s m0, inv m0 (c_most s) -> length (c_weights s) = 6%nat -> c_options s = None ->
  ((c_max s < 2)%Z -> capi_fit pi s x y kw = (s, Err ValueError)) /\
  ((2 <= c_max s <= 4)%Z -> exists v, snd (capi_fit pi s x y kw) = Ok v) /\
  ((5 <= c_max s)%Z -> snd (capi_fit pi s x y kw) = Err IndexError).
Proof.
  intros St pi inv x y kw V HA s m0 Hm Hw Ho. split; [apply C63_low_l|]. split.
  - intros Hd. destruct (c_weights s) as [|w0 [|w1 [|w2 [|w3 [|w4 [|w5 [|w6 w]]]]]]] eqn:E; try discriminate.
    eexists. apply (C62_all St pi inv x y kw V HA s m0 w0 w1 w2 w3 w4 w5 []); auto.
  - intros Hd. exact (C63_five_l pi inv x y kw V HA s m0 (c_weights s) Hm Hd Ho eq_refl).
Qed.
Print Assumptions C63_fit.
(** set_params does not check: degree 5 is accepted and fails in fit *)
Theorem C63_set_params_refuted : exists s s', capi_init (dicomo_index dcX "arithmetic" "mom" "mean") 4 [1;1;1;-1;-1;-1]%Q true None = Ok s /\
  s' = capi_set_max s 5 /\ c_max s' = 5%Z /\
  snd (capi_fit (dicomo_index dcX "arithmetic" "mom" "mean") s' (A1 [0;0;3]%Q) (A1 [0;3;0]%Q) kw0) = Err IndexError.
Proof. do 2 eexists. split; [reflexivity|]. split; [reflexivity|]. split; [reflexivity|]. vm_compute. reflexivity. Qed.
Print Assumptions C63_set_params_refuted.
Example C63_case : pi_new (dicomo_index dcX "arithmetic" "mom" "mean") = Ok (mk_dstate "arithmetic" "mom" "mean" None None None None). Proof. reflexivity. Qed.

(* ------------------------------------------------------------------ *)
(** C103 *)
Theorem C103_repeatable : forall St (pi : pindex R St) inv x y kw V, answers pi inv x y kw V ->
  forall s m0, inv m0 (c_most s) -> (2 <= c_max s <= 4)%Z -> length (c_weights s) = 6%nat -> c_options s = None ->
  exists v, forall k, snd (capi_fit pi (Nat.iter k (fun s' => fst (capi_fit pi s' x y kw)) s) x y kw) = Ok v.
Proof. exact @C103_l. Qed.
Print Assumptions C103_repeatable.
(** with center='median' the second evaluation differs from the first: the
    co-skewness has switched the object to the mean *)
Theorem C103_median_refuted : exists s v w, capi_init (dicomo_index dcX "arithmetic" "mom" "median") 3 [1;0;0;0;0;0]%Q true None = Ok s /\
  let f s' := capi_fit (dicomo_index dcX "arithmetic" "mom" "median") s' (A1 [0;1;5]%Q) (A1 [0;1;5]%Q) kw0 in
  snd (f s) = Ok v /\ snd (f (fst (f s))) = Ok w /\ ~ Qeq v w.
Proof. do 3 eexists. split; [reflexivity|]. cbv zeta. split; [vm_compute; reflexivity|]. split; [vm_compute; reflexivity|]. vm_compute. discriminate. Qed.
Print Assumptions C103_median_refuted.
Example C103_case : answers (dicomo_index (mk_dcor (fun _ _ => Err ValueError) (fun _ _ => Err ValueError)) "arithmetic" "mom" "mean") dinv (A1 [1;2;4]) (A1 [0;1;5]) kw0 (dval [1;2;4] [0;1;5]).
Proof. exact (proj1 C62_case). Qed.
