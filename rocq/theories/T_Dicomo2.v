(** Property theorems C99 (correlation), C125-C128: bias-corrected, trimmed and
    median-based (co-)moment statistics. *)

From Coq Require Import String Reals QArith List Arith ZArith Bool Lia Lra Permutation Sorted.
Import ListNotations.
From Verif Require Import Num Err Vec VecR OrdR L_Mat S_Stats L_Stats M_Utils M_Preproc M_Dicomo S_Dicomo S_Dicomo2 L_Dicomo10 L_Dicomo11.
Import List. Open Scope R_scope.

(** concrete cases *)
Definition e2 {A} (m c : string) : dstate A := mk_dstate "distance"%string m c None None None None.
Definition a2 {A} (m c : string) : dstate A := mk_dstate "arithmetic"%string m c None None None None.
Definition kfast {A} (y : arr A) (b : bool) : dkw A := mk_dkw (Some y) None (Some b) None None None None None None None.
Definition knaive {A} (y : arr A) (b : bool) : dkw A := mk_dkw (Some y) None (Some b) None (Some "naive"%string) None None None None None.
Definition ktrim {A} (y : arr A) (t : A) : dkw A := mk_dkw (Some y) (Some t) None None None None None None None None.
Definition dcboth : dcor_env R :=
  mk_dcor (fun a b => match a, b with A2 X, A2 Y => Ok (dcov_sq (length X) X Y) | _, _ => Err ValueError end)
          (fun a b => match a, b with A2 X, A2 Y => Ok (ucov_sq (length X) X Y) | _, _ => Err ValueError end).
Definition XA : list (list R) := [[0];[0];[1];[1]].
Definition XB : list (list R) := [[0];[1];[0];[1]].
Lemma XA_matrix : is_matrix 4 1 XA /\ is_matrix 4 1 XB. Proof. split; repeat constructor. Qed.

(* ------------------------------------------------------------------ *)
(** C99: the two algorithms also agree on the distance correlation *)
Theorem C99_fast_correlation : forall dc s kw kw' n p q X Y, dcor_exact dc -> no_trimming kw -> biascorr kw = false -> k_metric kw = None -> naive_mode kw ->
  no_trimming kw' -> biascorr kw' = false -> fast_mode kw' -> is_matrix n p X -> is_matrix n q Y -> (0 < n)%nat -> configured s "distance" "corr" "mean" ->
  k_y kw = Some (A2 Y) -> k_y kw' = Some (A2 Y) -> k_order kw = None -> k_order kw' = None ->
  fit_result dc s (A2 X) kw' = fit_result dc s (A2 X) kw.
Proof. exact C99_corr_l. Qed.
Print Assumptions C99_fast_correlation.
Example C99_corr_case : dcor_exact dcboth /\ naive_mode (knaive (A2 XB) false) /\ fast_mode (kfast (A2 XB) false) /\ biascorr (kfast (A2 XB) false) = false /\ is_matrix 4 1 XA.
Proof.
  split; [|split; [exists "naive"%string; split; [reflexivity|discriminate]|split; [left; reflexivity|split; [reflexivity|apply XA_matrix]]]].
  intros n p q X Y [H1 _] _ _. cbn [dc_v dcboth]. rewrite H1. reflexivity.
Qed.

(* ------------------------------------------------------------------ *)
(** C125: bias-corrected distance statistics *)
Theorem C125_general_algorithm : forall dc s kw n p q X Y, no_trimming kw -> biascorr kw = true -> k_metric kw = None -> naive_mode kw ->
  is_matrix n p X -> is_matrix n q Y -> (4 <= n)%nat ->
  (configured s "distance" "var" "mean" -> fit_result dc s (A2 X) kw = Ok (sqrt (ucov_sq n X X))) /\
  (configured s "distance" "cov" "mean" -> k_y kw = Some (A2 Y) -> fit_result dc s (A2 X) kw = Ok (sqrt (Rabs (ucov_sq n X Y)))) /\
  (configured s "distance" "corr" "mean" -> k_y kw = Some (A2 Y) -> k_order kw = None ->
     exists r, fit_result dc s (A2 X) kw = Ok r /\
       (ucov_sq n X X <> 0 -> ucov_sq n Y Y <> 0 -> 0 <= r <= 1 /\ r ^ 4 = (ucov_sq n X Y) ^ 2 / (ucov_sq n X X * ucov_sq n Y Y))).
Proof. exact C125_general_l. Qed.
Print Assumptions C125_general_algorithm.
Example C125_general_case : no_trimming (knaive (A2 XB) true) /\ biascorr (knaive (A2 XB) true) = true /\ naive_mode (knaive (A2 XB) true) /\
  is_matrix 4 1 XA /\ ucov_sq 4 XA XB = - (1/3).
Proof. split; [left; reflexivity|]. split; [reflexivity|]. split; [exists "naive"%string; split; [reflexivity|discriminate]|]. split; [apply XA_matrix|exact ucov_negative]. Qed.

Theorem C125_estimator : forall n X Y, (4 <= n)%nat -> ucov_sq n X Y = ucov_sq n Y X /\ 0 <= ucov_sq n X X /\ (ucov_sq n X Y) ^ 2 <= ucov_sq n X X * ucov_sq n Y Y.
Proof. exact C125_estimator_l. Qed.
Print Assumptions C125_estimator.

(** with the default algorithm the result is the root of the estimator itself... *)
Theorem C125_default_algorithm : forall dc s kw n p q X Y, dcor_u_exact dc -> configured s "distance" "cov" "mean" -> no_trimming kw -> biascorr kw = true ->
  fast_mode kw -> is_matrix n p X -> is_matrix n q Y -> (4 <= n)%nat -> k_y kw = Some (A2 Y) ->
  fit_result dc s (A2 X) kw = Ok (sqrt (ucov_sq n X Y)).
Proof. exact fit_ucov_fast. Qed.
Print Assumptions C125_default_algorithm.
Example C125_default_case : dcor_u_exact dcboth /\ fast_mode (kfast (A2 XB) true).
Proof. split; [|left; reflexivity]. intros n p q X Y [H1 _] _ _. cbn [dc_u dcboth]. rewrite H1. reflexivity. Qed.
(** ...so a negative estimate yields NaN there and a positive number with the general algorithm *)
Theorem C125_algorithms_agree_refuted :
  (forall (dc : dcor_env XR) s kw X ya v, configured s "distance" "cov" "mean" -> k_trim kw = None -> k_bias kw = Some true -> k_calc kw = None -> X <> [] ->
     k_y kw = Some ya -> dc_u dc (A2 X) ya = Ok (Fin v) -> v < 0 -> fit_result dc s (A2 X) kw = Ok NaN) /\
  (exists X Y, is_matrix 4 1 X /\ is_matrix 4 1 Y /\ ucov_sq 4 X Y < 0 /\
     forall dc s kw, configured s "distance" "cov" "mean" -> no_trimming kw -> biascorr kw = true -> k_metric kw = None -> naive_mode kw -> k_y kw = Some (A2 Y) ->
       exists r, 0 < r /\ fit_result dc s (A2 X) kw = Ok r).
Proof. exact C125_refuted_l. Qed.
Print Assumptions C125_algorithms_agree_refuted.

(** the martingale difference divergence with bias correction *)
Theorem C125_mdd : forall dc s kw n p X ya y, configured s "distance" "mdd" "mean" -> no_trimming kw -> biascorr kw = true -> is_matrix n p X -> (4 <= n)%nat ->
  k_y kw = Some ya -> sample ya y -> length y = n -> fit_result dc s (A2 X) kw = Ok (sqrt (umdd_sq n X y)).
Proof. exact C125_mdd_l. Qed.
Print Assumptions C125_mdd.
Example C125_mdd_case : sample (A1 [0;1;0;1]) [0;1;0;1] /\ umdd_sq 4 XA [0;1;0;1] = - (1/6).
Proof. split; [left; reflexivity|]. pose proof umdd_negative as H. rewrite (dd_u_value 4 1 _ _ [0;1;0;1]) in H; [|split; [reflexivity|repeat constructor]|lia|left; reflexivity|reflexivity]. injection H; auto. Qed.
Theorem C125_mdd_nonnegative_refuted :
  (forall (dc : dcor_env XR) s kw X ya v, configured s "distance" "mdd" "mean" -> k_trim kw = None -> k_bias kw = Some true -> X <> [] -> k_y kw = Some ya ->
     alen ya = length X -> difference_divergence X ya "mean" (n0 : XR) true = Ok (Fin v) -> v < 0 -> fit_result dc s (A2 X) kw = Ok NaN) /\
  (exists X y, is_matrix 4 1 X /\ length y = 4%nat /\ umdd_sq 4 X y < 0).
Proof. exact C125_mdd_refuted_l. Qed.
Print Assumptions C125_mdd_nonnegative_refuted.

(* ------------------------------------------------------------------ *)
(** C126: the trimmed martingale difference divergence *)
Theorem C126_trimmed_mdd : forall dc s kw n p X ya y t, configured s "distance" "mdd" "mean" -> k_trim kw = Some t -> 0 <= t < 1/2 -> biascorr kw = false ->
  is_matrix n p X -> (0 < n)%nat -> k_y kw = Some ya -> sample ya y -> length y = n ->
  exists v A B, fit_result dc s (A2 X) kw = Ok (sqrt v) /\ is_trimmed_centring t n (rowdist X) A /\
    is_trimmed_centring t n (fun i j => (nth i y 0 - nth j y 0) ^ 2 / 2) B /\ t_mean t (all_pairs n (fun i j => A i j * B i j)) v.
Proof. exact C126_l. Qed.
Print Assumptions C126_trimmed_mdd.
Example C126_case : k_trim (ktrim (A1 [0;1;0;3]) (1/4)) = Some (1/4) /\ 0 <= 1/4 < 1/2 /\ biascorr (ktrim (A1 [0;1;0;3]) (1/4)) = false /\ is_matrix 4 1 XA /\ cut (1/4) 4 = 1%nat.
Proof. split; [reflexivity|]. split; [lra|]. split; [reflexivity|]. split; [apply XA_matrix|exact cut_quarter]. Qed.

(* ------------------------------------------------------------------ *)
(** C127: trimmed (co-)moments *)
Theorem C127_trimmed_moments : forall dc s xa x kw t, sample xa x -> x <> [] -> k_trim kw = Some t -> 0 <= t < 1/2 ->
  (configured s "arithmetic" "var" "mean" -> exists c nt, fit_result dc s xa kw = Ok (c * if biascorr kw then IZR nt / (IZR nt - 1) else 1) /\
     is_trimmed_comoment t 1 1 x x c /\ rounded (INR (length x) * (1 - t)) nt) /\
  (forall ya y, configured s "arithmetic" "cov" "mean" -> k_y kw = Some ya -> sample ya y -> length y = length x ->
     exists c nt, fit_result dc s xa kw = Ok (c * if biascorr kw then IZR nt / (IZR nt - 1) else 1) /\
       is_trimmed_comoment t 1 1 x y c /\ rounded (INR (length x) * (1 - t)) nt) /\
  (forall k, configured s "arithmetic" "mom" "mean" -> biascorr kw = false -> k_order kw = Some k ->
     (match k_option kw with Some i => i | None => 1%nat end <= k)%nat -> (1 <= k)%nat ->
     exists c, fit_result dc s xa kw = Ok c /\ if (k =? 1)%nat then t_mean t x c else is_trimmed_comoment t k 0 x x c).
Proof. exact C127_l. Qed.
Print Assumptions C127_trimmed_moments.
Example C127_case : sample (A1 [1;5;2;9]) [1;5;2;9] /\ k_trim (ktrim (A1 [0;1;0;3]) (1/4)) = Some (1/4) /\ cut (1/4) 4 = 1%nat /\ t_mean (1/4) [1;5;2;9] (7/2).
Proof. split; [left; reflexivity|]. split; [reflexivity|]. split; [exact cut_quarter|exact t_mean_case]. Qed.
Theorem C127_trimvar : forall t (x : list R), 0 < t < 1/2 -> x <> [] -> exists c, trimvar t x = Ok c /\ is_trimmed_comoment t 1 1 x x c.
Proof. exact trimvar_ok. Qed.
Print Assumptions C127_trimvar.

(* ------------------------------------------------------------------ *)
(** C128: median-based (co-)moments *)
Theorem C128_median_moments : forall dc s xa x kw, sample xa x -> x <> [] ->
  (forall k, configured s "arithmetic" "mom" "median" -> k_order kw = Some k -> (match k_option kw with Some i => i | None => 1%nat end <= k)%nat -> (2 <= k)%nat ->
     exists d, fit_result dc s xa kw = Ok ((if (k =? 2)%nat then 14826 / 10000 else 1) * d) /\ is_mad 1 x d) /\
  (configured s "arithmetic" "var" "median" -> exists d, fit_result dc s xa kw = Ok (14826 / 10000 * d) /\ is_mad 1 x d) /\
  (configured s "arithmetic" "mom" "median" -> k_order kw = Some 1%nat ->
     (no_trimming kw -> exists m, fit_result dc s xa kw = Ok m /\ is_median x m) /\ (~ no_trimming kw -> fit_result dc s xa kw = Err TypeError)).
Proof. exact fit_median_mom. Qed.
Print Assumptions C128_median_moments.
Theorem C128_median_comoment : forall dc s xa x ya y kw, configured s "arithmetic" "cov" "median" -> sample xa x -> x <> [] -> k_y kw = Some ya -> sample ya y -> length y = length x ->
  (x <> y -> exists mx my v, fit_result dc s xa kw = Ok v /\ is_median x mx /\ is_median y my /\ is_median (map (fun p => (fst p - mx) * (snd p - my)) (combine x y)) v) /\
  (x = y -> exists d, fit_result dc s xa kw = Ok (14826 / 10000 * d) /\ is_mad 1 x d).
Proof. exact fit_median_cov. Qed.
Print Assumptions C128_median_comoment.
Example C128_case : configured (a2 (A := R) "cov" "median") "arithmetic" "cov" "median" /\ sample (A1 [1;2;4]) [1;2;4] /\ [1;2;4] <> [0;1;5] /\ ~ no_trimming (ktrim (A1 [0;1;5]) (1/4)).
Proof. split; [repeat split|]. split; [left; reflexivity|]. split; [intros H; injection H; lra|]. intros [H|H]; cbn in H; [discriminate|injection H; lra]. Qed.
(** a "variance" about the median is a scale: rescaling the data by a rescales it by |a|, not by a^2 *)
Theorem C128_variance_scaling_refuted : forall dc s x kw a b, configured s "arithmetic" "var" "median" -> x <> [] ->
  exists d, fit_result dc s (A1 x) kw = Ok d /\ fit_result dc s (A1 (affine a b x)) kw = Ok (Rabs a * d).
Proof. exact C128_scaling_l. Qed.
Print Assumptions C128_variance_scaling_refuted.
Example C128_scaling_case : Rabs (-3) * 2 <> (-3) ^ 2 * 2. Proof. rewrite Rabs_left by lra. lra. Qed.
