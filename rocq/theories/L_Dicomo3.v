(** Properties of the arithmetic modes. *)

From Coq Require Import String Reals List Arith ZArith Bool Lia Lra Psatz.
Import ListNotations.
From Verif Require Import Num Err Vec VecR OrdR L_Mat S_Stats L_Stats M_Utils M_Preproc L_Radial L_Missing M_Dicomo S_Dicomo L_Dicomo L_Dicomo2.
Import List. Open Scope R_scope.

Lemma len_pos_ne : forall {B} (x : list B) k, (S k <= length x)%nat -> x <> [].
Proof. intros B [|a x] k Hl; [cbn in Hl; lia|discriminate]. Qed.
Lemma affine_length : forall a b x, length (affine a b x) = length x.
Proof. intros; unfold affine; apply map_length. Qed.
Lemma affine_ne : forall a b x, x <> [] -> affine a b x <> [].
Proof. intros a b [|u x] Hx; [congruence|discriminate]. Qed.

Lemma C50_l : forall dc s xa x kw, configured s "arithmetic" "var" "mean" -> sample xa x -> no_trimming kw -> (2 <= length x)%nat ->
  exists v, fit_result dc s xa kw = Ok v /\
    v = (if biascorr kw then INR (length x) / (INR (length x) - 1) else 1) * variance_of x /\
    0 <= v /\ (v = 0 <-> constant x) /\
    forall a b xa', sample xa' (affine a b x) -> fit_result dc s xa' kw = Ok (a * a * v).
Proof.
  intros dc s xa x kw Hc Hs Ht Hl. pose proof (len_pos_ne x 1 Hl) as Hx.
  pose proof (bessel_pos (biascorr kw) (length x) Hl) as Hb. pose proof (variance_nonneg x) as Hv.
  exists (variance_of x * bessel (biascorr kw) (length x)). repeat split.
  - apply fit_var; auto.
  - unfold bessel. ring.
  - apply Rmult_le_pos; lra.
  - intros E. apply variance_zero_iff; auto. apply Rmult_integral in E as [E|E]; lra.
  - intros E. apply (variance_zero_iff x Hx) in E. rewrite E. ring.
  - intros a b xa' Hs'. rewrite (fit_var dc s xa' (affine a b x) kw Hc Hs' Ht (affine_ne a b x Hx)).
    rewrite variance_affine, affine_length by auto. f_equal. ring.
Qed.

(** the covariance as a function of the samples *)
Definition Cfun (b : bool) (x y : list R) : R := covariance_of x y * bessel b (length x).

Lemma C51_l : forall dc, exists C : bool -> list R -> list R -> R,
  (forall s xa x ya y kw, configured s "arithmetic" "cov" "mean" -> sample xa x -> no_trimming kw -> x <> [] ->
     k_y kw = Some ya -> sample ya y -> length y = length x -> fit_result dc s xa kw = Ok (C (biascorr kw) x y)) /\
  (forall s xa x kw, configured s "arithmetic" "var" "mean" -> sample xa x -> no_trimming kw -> x <> [] ->
     fit_result dc s xa kw = Ok (C (biascorr kw) x x)) /\
  (forall x y, length x = length y -> C false x y = covariance_of x y) /\
  (forall bc x y, length x = length y -> C bc x y = C bc y x) /\
  (forall bc x y a b, length x = length y -> x <> [] -> C bc (affine a b x) y = a * C bc x y) /\
  (forall bc x z y, length x = length y -> length z = length y -> C bc (plus_l x z) y = C bc x y + C bc z y).
Proof.
  intros dc. exists Cfun. unfold Cfun. repeat split.
  - intros. eapply fit_cov; eauto.
  - intros. rewrite cov_self_variance. apply fit_var; auto.
  - intros. unfold bessel. ring.
  - intros bc x y Hl. rewrite cov_sym, Hl by auto. reflexivity.
  - intros bc x y a b Hl Hx. rewrite cov_affine_l, affine_length by auto. ring.
  - intros bc x z y Hx Hz. rewrite cov_plus_l, plus_l_length by congruence. rewrite Hz, Hx. ring.
Qed.

(** the correlation as a function of the samples; the bias correction cancels *)
Definition Rfun (x y : list R) : R := covariance_of x y / (sqrt (variance_of x) * sqrt (variance_of y)).

Lemma Rfun_bessel : forall b x y, (2 <= length x)%nat -> 0 < variance_of x -> 0 < variance_of y ->
  covariance_of x y * bessel b (length x) / (sqrt (variance_of x * bessel b (length x)) * sqrt (variance_of y * bessel b (length x))) = Rfun x y.
Proof.
  intros b x y Hl Hx Hy. pose proof (bessel_pos b (length x) Hl) as Hb.
  rewrite !sqrt_mult by lra. unfold Rfun.
  replace (sqrt (variance_of x) * sqrt (bessel b (length x)) * (sqrt (variance_of y) * sqrt (bessel b (length x))))
    with (sqrt (variance_of x) * sqrt (variance_of y) * (sqrt (bessel b (length x)) * sqrt (bessel b (length x)))) by ring.
  rewrite sqrt_sqrt by lra. pose proof (sqrt_lt_R0 _ Hx). pose proof (sqrt_lt_R0 _ Hy). field. lra.
Qed.

Lemma Rfun_bound : forall x y, length x = length y -> x <> [] -> 0 < variance_of x -> 0 < variance_of y -> -1 <= Rfun x y <= 1.
Proof.
  intros x y Hl Hne Hx Hy. pose proof (cov_sq_le x y Hl Hne) as Hcs. unfold Rfun.
  pose proof (sqrt_lt_R0 _ Hx) as Sx. pose proof (sqrt_lt_R0 _ Hy) as Sy.
  assert (HD : 0 < sqrt (variance_of x) * sqrt (variance_of y)) by (apply Rmult_lt_0_compat; auto).
  assert (HH : (sqrt (variance_of x) * sqrt (variance_of y)) * (sqrt (variance_of x) * sqrt (variance_of y)) = variance_of x * variance_of y).
  { replace (variance_of x * variance_of y) with ((sqrt (variance_of x) * sqrt (variance_of x)) * (sqrt (variance_of y) * sqrt (variance_of y)))
      by (rewrite !sqrt_sqrt by lra; reflexivity). ring. }
  set (D := sqrt (variance_of x) * sqrt (variance_of y)) in *. set (c := covariance_of x y) in *.
  assert (-D <= c <= D) by (split; nra).
  split.
  - apply Rmult_le_reg_r with D; auto. unfold Rdiv. rewrite Rmult_assoc, Rinv_l by lra. lra.
  - apply Rmult_le_reg_r with D; auto. unfold Rdiv. rewrite Rmult_assoc, Rinv_l by lra. lra.
Qed.

Lemma Rfun_affine_l : forall a b x y, length x = length y -> x <> [] -> 0 < a -> Rfun (affine a b x) y = Rfun x y.
Proof.
  intros a b x y Hl Hx Ha. unfold Rfun. rewrite cov_affine_l, variance_affine by auto.
  assert (sqrt (a * a * variance_of x) = a * sqrt (variance_of x)) as ->.
  { rewrite sqrt_mult; [rewrite sqrt_square by lra; reflexivity|nra|apply variance_nonneg]. }
  unfold Rdiv. rewrite !Rinv_mult. set (u := / sqrt (variance_of x)). set (v := / sqrt (variance_of y)).
  replace (a * covariance_of x y * (/ a * u * v)) with ((a * / a) * (covariance_of x y * (u * v))) by ring.
  rewrite Rinv_r by lra. ring.
Qed.
Lemma Rfun_sym : forall x y, length x = length y -> Rfun x y = Rfun y x.
Proof. intros x y Hl. unfold Rfun. rewrite cov_sym by auto. f_equal. ring. Qed.
Lemma Rfun_self : forall x, 0 < variance_of x -> Rfun x x = 1.
Proof. intros x Hx. unfold Rfun. rewrite cov_self_variance, sqrt_sqrt by lra. field. lra. Qed.

Lemma constant_affine : forall a b x, a <> 0 -> constant (affine a b x) -> constant x.
Proof.
  intros a b x Ha Hc u v Hu Hv. assert (a * u + b = a * v + b).
  { apply Hc; unfold affine; apply in_map_iff; [exists u|exists v]; auto. }
  apply Rmult_eq_reg_l with a; auto. lra.
Qed.

Lemma nonconst_len2 : forall x : list R, x <> [] -> ~ constant x -> (2 <= length x)%nat.
Proof.
  intros [|a [|b x]] Hx Hc; [congruence| |cbn; lia]. exfalso. apply Hc. intros u v [<-|[]] [<-|[]]. reflexivity.
Qed.

Lemma C52_l : forall dc, exists r : list R -> list R -> R,
  (forall s xa x ya y kw, configured s "arithmetic" "corr" "mean" -> sample xa x -> no_trimming kw -> k_order kw = None ->
     k_y kw = Some ya -> sample ya y -> length y = length x -> x <> [] -> ~ constant x -> ~ constant y ->
     fit_result dc s xa kw = Ok (r x y)) /\
  (forall x y, length x = length y -> x <> [] -> ~ constant x -> ~ constant y -> -1 <= r x y <= 1) /\
  (forall x, x <> [] -> ~ constant x -> forall a b, 0 < a -> r x (affine a b x) = 1) /\
  (forall x, x <> [] -> ~ constant x -> forall a b, a < 0 -> r x (affine a b x) = -1) /\
  (forall x y, length x = length y -> r x y = r y x) /\
  (forall x y a b, length x = length y -> x <> [] -> 0 < a -> r (affine a b x) y = r x y /\ r x (affine a b y) = r x y).
Proof.
  intros dc. exists Rfun. split; [|split; [|split; [|split; [|split]]]].
  - intros s xa x ya y kw Hc Hs Ht Ho Hy Hsy Hl Hx Cx Cy.
    rewrite (fit_corr dc s xa x ya y kw Hc Hs Ht Hx Hy Hsy Hl Ho).
    f_equal. apply Rfun_bessel; [apply nonconst_len2; auto|apply variance_pos; auto|apply variance_pos; auto].
    intros ->. destruct x; [congruence|discriminate].
  - intros x y Hl Hx Cx Cy. apply Rfun_bound; auto; apply variance_pos; auto. intros ->. destruct x; [congruence|discriminate].
  - intros x Hx Cx a b Ha. rewrite Rfun_sym, Rfun_affine_l by (rewrite ?affine_length; auto). apply Rfun_self, variance_pos; auto.
  - intros x Hx Cx a b Ha. pose proof (variance_pos x Hx Cx) as Hv.
    unfold Rfun. rewrite cov_sym by (rewrite affine_length; auto).
    rewrite cov_affine_l, variance_affine, cov_self_variance by auto.
    replace (a * a) with ((- a) * (- a)) by ring.
    rewrite sqrt_mult, sqrt_square by (try lra; nra).
    replace (sqrt (variance_of x) * (- a * sqrt (variance_of x))) with (- a * (sqrt (variance_of x) * sqrt (variance_of x))) by ring.
    rewrite sqrt_sqrt by lra. field. lra.
  - apply Rfun_sym.
  - intros x y a b Hl Hx Ha. split; [apply Rfun_affine_l; auto|].
    assert (Hy : y <> []) by (intros ->; destruct x; [congruence|discriminate]).
    rewrite Rfun_sym, Rfun_affine_l by (rewrite ?affine_length; auto).
    apply Rfun_sym. auto.
Qed.

(** C53 *)
Lemma C53_l : forall dc s xa x kw c, sample xa x -> no_trimming kw -> k_option kw = None -> biascorr kw = true -> x <> [] -> ~ constant x ->
  (configured s "arithmetic" "skew" c -> (3 <= length x)%nat ->
     fit_result dc s xa kw = Ok (sqrt (INR (length x) * (INR (length x) - 1)) / (INR (length x) - 2) * skewness x)) /\
  (configured s "arithmetic" "kurt" c -> (4 <= length x)%nat ->
     fit_result dc s xa kw = Ok ((INR (length x) - 1) / ((INR (length x) - 2) * (INR (length x) - 3)) *
        ((INR (length x) + 1) * (kurtosis x - 3) + 6) + (if match k_fisher kw with Some f => f | None => true end then 0 else 3))).
Proof.
  intros dc s xa x kw c Hs Ht Hop Hb Hx Hc. pose proof (variance_pos x Hx Hc) as Hv. split; intros Hcf Hl.
  - rewrite (fit_skew dc s xa x kw c) by auto. rewrite Hb. f_equal.
    assert (H3 : 3 <= INR (length x)) by (apply (le_INR 3) in Hl; cbn in Hl; lra).
    set (n := INR (length x)) in *. replace (n * n - n) with (n * (n - 1)) by ring.
    assert (Hp : 0 < n * (n - 1)) by nra. pose proof (sqrt_lt_R0 _ Hp) as Sp. pose proof (sqrt_sqrt (n * (n - 1)) ltac:(lra)) as SS.
    set (r := sqrt (n * (n - 1))) in *.
    apply Rmult_eq_reg_r with (r * (n - 2)); [|nra]. unfold Rdiv. 
    transitivity (skewness x * (n * (n - 1))); [field; nra|]. rewrite <- SS. field. lra.
  - rewrite (fit_kurt dc s xa x kw c) by auto. rewrite Hb. f_equal.
    assert (H4 : 4 <= INR (length x)) by (apply (le_INR 4) in Hl; cbn in Hl; lra).
    set (n := INR (length x)) in *. unfold dflt. field. lra.
Qed.
(** without the correction the plain ratios are returned *)
Lemma C53_plain_l : forall dc s xa x kw c, sample xa x -> no_trimming kw -> k_option kw = None -> biascorr kw = false -> x <> [] -> ~ constant x ->
  (configured s "arithmetic" "skew" c -> fit_result dc s xa kw = Ok (skewness x)) /\
  (configured s "arithmetic" "kurt" c -> fit_result dc s xa kw = Ok (kurtosis x)).
Proof.
  intros dc s xa x kw c Hs Ht Hop Hb Hx Hc. pose proof (variance_pos x Hx Hc) as Hv. split; intros Hcf.
  - rewrite (fit_skew dc s xa x kw c) by auto. rewrite Hb. reflexivity.
  - rewrite (fit_kurt dc s xa x kw c) by auto. rewrite Hb. reflexivity.
Qed.

(** C54 *)
Lemma C54_l : forall dc s s' xa x kw c, configured s "arithmetic" "std" c -> configured s' "arithmetic" "var" "mean" ->
  sample xa x -> no_trimming kw -> x <> [] -> ~ constant x ->
  exists d v, fit_result dc s xa kw = Ok d /\ fit_result dc s' xa kw = Ok v /\
    (biascorr kw = false -> d = sqrt v) /\
    (biascorr kw = true -> d = INR (length x) / (INR (length x) - 1) * sqrt (variance_of x) /\ d <> sqrt v).
Proof.
  intros dc s s' xa x kw c Hc Hc' Hs Ht Hx Hn. pose proof (variance_pos x Hx Hn) as Hv. pose proof (nonconst_len2 x Hx Hn) as Hl.
  pose proof (sqrt_lt_R0 _ Hv) as Sp.
  exists (variance_of x * bessel (biascorr kw) (length x) / sqrt (variance_of x)), (variance_of x * bessel (biascorr kw) (length x)).
  split; [apply (fit_std dc s xa x kw c); auto|]. split; [apply fit_var; auto|].
  assert (Hq : forall b, variance_of x * b / sqrt (variance_of x) = b * sqrt (variance_of x)).
  { intros b. rewrite <- (sqrt_sqrt (variance_of x)) at 1 by lra. field. lra. }
  split; intros Hb; rewrite Hb; unfold bessel.
  - rewrite Hq, Rmult_1_r, Rmult_1_l. reflexivity.
  - rewrite Hq. split; [reflexivity|].
    assert (H2 : 2 <= INR (length x)) by (apply (le_INR 2) in Hl; cbn in Hl; lra). set (n := INR (length x)) in *.
    assert (Hf : 1 < n / (n - 1)).
    { apply Rmult_lt_reg_r with (n - 1); [lra|]. unfold Rdiv. rewrite Rmult_assoc, Rinv_l by lra. lra. }
    set (f := n / (n - 1)) in *. rewrite sqrt_mult by lra. intros E.
    assert (f = sqrt f) by (apply Rmult_eq_reg_r with (sqrt (variance_of x)); lra).
    assert (f * f = f); [|nra]. rewrite H at 1 2. apply sqrt_sqrt. lra.
Qed.

(** constant samples, with NaN visible *)
Lemma map2_map_Fin : forall (f : XR -> XR -> XR) (g : R -> R -> R) x y, (forall a b, f (Fin a) (Fin b) = Fin (g a b)) ->
  map2 f (map Fin x) (map Fin y) = map Fin (map2 g x y).
Proof. intros f g x. induction x as [|a x IH]; intros [|b y] Hf; cbn; auto. rewrite Hf, IH; auto. Qed.
Lemma dtrim_mean_XR : forall v, v <> [] -> dtrim_mean (Fin 0) (map Fin v) = Ok (Fin (mean_of v)).
Proof. intros v Hv. unfold dtrim_mean. cbn [neqb n0 Num_XR XReqb]. rewrite Reqb_refl, vmean_XR, mean_of_vmean by auto. reflexivity. Qed.
Lemma trim_mom_XR : forall x opt, x <> [] -> trim_mom (map Fin x) (map Fin x) false 2 (Fin 0) opt false = Ok (Fin (variance_of x)).
Proof.
  intros x opt Hx. unfold trim_mom. rewrite dtrim_mean_XR by auto. cbn [bind].
  change (if (2 <? 2)%nat then (2 - opt)%nat else 1%nat) with 1%nat. change (if (2 <? 2)%nat then opt else 1%nat) with 1%nat.
  rewrite (map2_map_Fin _ (fun a b => (a - mean_of x) * 1 * ((b - mean_of x) * 1)) x x).
  2:{ intros a b. cbn [npow nmul nsub n1 Num_XR XRmul XRsub XRadd XRopp]. reflexivity. }
  rewrite dtrim_mean_XR by (rewrite map2_same; destruct x; [congruence|discriminate]).
  cbn [bind nmul n1 Num_XR XRmul]. do 2 f_equal. unfold variance_of. rewrite map2_same, Rmult_1_r. f_equal. apply map_ext. intros; ring.
Qed.

Lemma C54_constant_l : forall (dc : dcor_env XR) s s' x c, configured s "arithmetic" "std" c -> configured s' "arithmetic" "var" "mean" ->
  x <> [] -> constant x -> fit_result dc s' (A1 (map Fin x)) kw0 = Ok (Fin 0) /\ fit_result dc s (A1 (map Fin x)) kw0 = Ok NaN.
Proof.
  intros dc s s' x c [C1 [C2 C3]] [D1 [D2 D3]] Hx Hc. apply (variance_zero_iff x Hx) in Hc.
  destruct s as [e m c' mo xm ym co]; destruct s' as [e' m' cc mo' xm' ym' co']; cbn [d_est d_mode d_center] in *; subst.
  unfold fit_result, dicomo_fit. dsimp. cbn [alen]. rewrite map_length, (len_eqb0 x Hx).
  unfold fit_arithmetic. cbn [k_trim k_bias k_fisher kw0]. dsimp. cbn [acol alen].
  change (@n0 XR Num_XR) with (Fin 0). rewrite !trim_mom_XR by auto. dsimp. unfold fit_tail, div_power. dsimp. rewrite Hc. split; [reflexivity|].
  f_equal. cbn [ndiv nsqrt Num_XR XRsqrt XRdiv]. destruct (Rlt_dec 0 0); [lra|]. rewrite sqrt_0. cbn [XRdiv].
  destruct (Req_EM_T 0 0); [|lra]. unfold XRsgninf. destruct (Rlt_dec 0 0); [lra|]. destruct (Rlt_dec 0 0); [lra|reflexivity].
Qed.

(** C97: co-skewness and co-kurtosis *)
Lemma sum_of_cons : forall a l, sum_of (a :: l) = a + sum_of l.
Proof. reflexivity. Qed.
Lemma pow_sqrt3 : forall v, 0 < v -> sqrt v ^ 3 = Rpower v (3 / 2).
Proof.
  intros v Hv. rewrite <- Rpower_sqrt by auto. rewrite <- Rpower_pow by apply exp_pos. rewrite Rpower_mult. f_equal. cbn [INR]. field.
Qed.
Lemma comoment_affine : forall a b p q x y, length x = length y -> x <> [] -> comoment p q (affine a b x) y = a ^ p * comoment p q x y.
Proof.
  intros a b p q x y Hl Hx. unfold comoment. rewrite mean_affine by auto.
  set (mx := mean_of x). set (my := mean_of y).
  unfold mean_of. rewrite !map_length, !combine_length, affine_length.
  assert (sum_of (map (fun z => (fst z - (a * mx + b)) ^ p * (snd z - my) ^ q) (combine (affine a b x) y)) =
          a ^ p * sum_of (map (fun z => (fst z - mx) ^ p * (snd z - my) ^ q) (combine x y))) as ->; [|unfold Rdiv; ring].
  clearbody mx my. clear Hx. revert y Hl.
  induction x as [|u x IH]; intros [|v y] Hl; cbn [length] in Hl; try discriminate; [cbn; ring|].
  unfold affine in *. cbn [map combine fst snd]. rewrite !sum_of_cons. rewrite IH by lia. cbn [fst snd].
  replace (a * u + b - (a * mx + b)) with (a * (u - mx)) by ring. rewrite Rpow_mult_distr. ring.
Qed.
Lemma comoment_swap : forall p q x y, length x = length y -> comoment p q x y = comoment q p y x.
Proof.
  intros p q x y Hl. unfold comoment. set (mx := mean_of x). set (my := mean_of y).
  unfold mean_of. rewrite !map_length, !combine_length, (Nat.min_comm (length y)). f_equal.
  clearbody mx my. revert y Hl. induction x as [|u x IH]; intros [|v y] Hl; cbn [length] in Hl; try discriminate; [reflexivity|].
  cbn [map combine fst snd]. rewrite !sum_of_cons. rewrite IH by lia. cbn [fst snd]. ring.
Qed.
Lemma comoment_affine_r : forall a b p q x y, length x = length y -> x <> [] -> comoment p q x (affine a b y) = a ^ q * comoment p q x y.
Proof.
  intros a b p q x y Hl Hx. rewrite comoment_swap by (rewrite affine_length; auto).
  rewrite comoment_affine; auto; [rewrite comoment_swap; auto|]. intros ->; destruct x; [congruence|discriminate].
Qed.

(** co-skewness with itself is skewness, co-kurtosis with itself is kurtosis *)
Lemma C97_self_l : forall dc s s' xa x kw c c', sample xa x -> no_trimming kw -> k_option kw = None -> k_std kw = None -> k_fisher kw = None ->
  k_y kw = Some xa -> x <> [] -> ~ constant x ->
  (configured s "arithmetic" "cos" c -> configured s' "arithmetic" "skew" c' -> (biascorr kw = true -> (3 <= length x)%nat) ->
     fit_result dc s xa kw = fit_result dc s' xa kw) /\
  (configured s "arithmetic" "cok" c -> configured s' "arithmetic" "kurt" c' -> biascorr kw = false ->
     fit_result dc s xa kw = fit_result dc s' xa kw).
Proof.
  intros dc s s' xa x kw c c' Hs Ht Ho Hst Hf Hy Hx Hn. pose proof (variance_pos x Hx Hn) as Hv. split.
  - intros H1 H2 Hl. rewrite (fit_cos dc s xa x xa x kw c) by auto. rewrite (fit_skew dc s' xa x kw c') by auto.
    f_equal. unfold cosd. rewrite Ho, Hst. dsimp. rewrite cmoment_comoment_gen. change (3 - 1 + 1)%nat with 3%nat.
    change (3 - 1)%nat with 2%nat.
    destruct (biascorr kw); unfold bessel.
    + assert (H3 : 3 <= INR (length x)) by (specialize (Hl eq_refl); apply (le_INR 3) in Hl; cbn in Hl; lra).
      set (n := INR (length x)) in *. unfold skewness. change (cmoment 2 x) with (variance_of x).
      assert (Hb : 0 < n / (n - 1)) by (apply Rdiv_lt_0_compat; lra).
      assert (E : sqrt (variance_of x * (n / (n - 1))) ^ 2 * sqrt (variance_of x * (n / (n - 1))) ^ 1 = Rpower (variance_of x) (3/2) * (n / (n - 1)) * sqrt (n / (n - 1))).
      { rewrite <- pow_sqrt3 by auto. generalize dependent (n / (n - 1)). intros g Hb. rewrite sqrt_mult by lra.
        replace (sqrt (variance_of x) ^ 3 * g * sqrt g) with (sqrt (variance_of x) ^ 3 * (sqrt g * sqrt g) * sqrt g) by (rewrite sqrt_sqrt by lra; ring). ring. }
      assert (Hp : 0 < Rpower (variance_of x) (3 / 2)) by apply exp_pos. set (P := Rpower (variance_of x) (3/2)) in *.
      pose proof (sqrt_lt_R0 _ Hb) as Sb.
      assert (Hpos : 0 < sqrt (variance_of x * (n / (n - 1)))) by (apply sqrt_lt_R0, Rmult_lt_0_compat; auto).
      rewrite Rplus_0_r. unfold Rdiv at 1. unfold Rdiv at 1. rewrite (Rmult_assoc _ (/ _) (/ _)), <- Rinv_mult. rewrite E.
      assert (S2 : sqrt (n * n - n) = (n - 1) * sqrt (n / (n - 1))).
      { apply sqrt_lem_1; [nra|apply Rmult_le_pos; lra|].
        replace ((n - 1) * sqrt (n / (n - 1)) * ((n - 1) * sqrt (n / (n - 1)))) with ((n - 1) * (n - 1) * (sqrt (n / (n - 1)) * sqrt (n / (n - 1)))) by ring.
        rewrite sqrt_sqrt by lra. field. lra. }
      rewrite S2. set (q := sqrt (n / (n - 1))) in *. field. repeat split; lra.
    + rewrite !Rmult_1_r, Rplus_0_r. unfold skewness. change (cmoment 2 x) with (variance_of x). rewrite <- pow_sqrt3 by auto.
      pose proof (sqrt_lt_R0 _ Hv). field. lra.
  - intros H1 H2 Hb. rewrite (fit_cok dc s xa x xa x kw c) by auto. rewrite (fit_kurt dc s' xa x kw c') by auto.
    f_equal. unfold cosd. rewrite Ho, Hst, Hf, Hb. dsimp. rewrite cmoment_comoment_gen. change (4 - 1 + 1)%nat with 4%nat. change (4 - 1)%nat with 3%nat.
    unfold bessel, kurtosis. change (cmoment 2 x) with (variance_of x). rewrite !Rmult_1_r, Rplus_0_r.
    pose proof (sqrt_lt_R0 _ Hv). rewrite <- (sqrt_sqrt (variance_of x)) at 3 by lra. field. lra.
Qed.

(** invariance of the standardised co-moments under increasing affine maps *)
Lemma C97_invariant_l : forall dc s xa x xa' ya y kw c a b, sample xa x -> sample xa' (affine a b x) -> no_trimming kw -> k_y kw = Some ya -> sample ya y ->
  k_std kw = None -> (match k_option kw with Some o => (o <= 3)%nat | None => True end) ->
  length y = length x -> x <> [] -> 0 < a ->
  (configured s "arithmetic" "cos" c -> fit_result dc s xa' kw = fit_result dc s xa kw) /\
  (configured s "arithmetic" "cok" c -> biascorr kw = false -> fit_result dc s xa' kw = fit_result dc s xa kw).
Proof.
  intros dc s xa x xa' ya y kw c a b Hs Hs' Ht Hy Hsy Hst Ho Hl Hx Ha.
  assert (Sq : forall f, 0 <= f -> sqrt (a * a * variance_of x * f) = a * sqrt (variance_of x * f)).
  { intros f Hf. rewrite Rmult_assoc, sqrt_mult; [rewrite sqrt_square by lra; reflexivity|nra|].
    apply Rmult_le_pos; auto. apply variance_nonneg. }
  assert (Dv : forall m f r, a ^ m * f / (a * r) ^ m = f / r ^ m).
  { intros m f r. rewrite Rpow_mult_distr. unfold Rdiv. rewrite Rinv_mult.
    replace (a ^ m * f * (/ a ^ m * / r ^ m)) with ((a ^ m * / a ^ m) * (f * / r ^ m)) by ring.
    rewrite Rinv_r by (apply pow_nonzero; lra). ring. }
  assert (Hbs : 0 <= bessel (biascorr kw) (length x)).
  { unfold bessel. destruct (biascorr kw); [|lra]. destruct x as [|x0 [|x1 x]]; [congruence| |].
    - cbn [length INR]. rewrite Rminus_diag_eq by auto. unfold Rdiv. rewrite Rinv_0. lra.
    - assert (2 <= INR (length (x0 :: x1 :: x))) by (apply (le_INR 2); cbn; lia). apply Rlt_le, Rdiv_lt_0_compat; lra. }
  split.
  - intros H1. rewrite (fit_cos dc s xa x ya y kw c) by auto.
    rewrite (fit_cos dc s xa' (affine a b x) ya y kw c) by (rewrite ?affine_length; auto; apply affine_ne; auto).
    f_equal. unfold cosd. rewrite Hst. dsimp. rewrite affine_length, comoment_affine, variance_affine by (auto; congruence).
    rewrite Sq by auto. rewrite Rmult_assoc. rewrite (Dv (3 - dflt (k_option kw) 1%nat)%nat). reflexivity.
  - intros H1 Hb. rewrite (fit_cok dc s xa x ya y kw c) by auto.
    rewrite (fit_cok dc s xa' (affine a b x) ya y kw c) by (rewrite ?affine_length; auto; apply affine_ne; auto).
    f_equal. unfold cosd. rewrite Hst. dsimp. rewrite affine_length, comoment_affine, variance_affine by (auto; congruence).
    rewrite Sq by auto. rewrite Hb. dsimp. rewrite Rmult_assoc. rewrite (Dv (4 - dflt (k_option kw) 1%nat)%nat). reflexivity.
Qed.

(** C98 continuum: alpha = 1 is the squared covariance; scaling *)
Lemma C98_l : forall dc s xa x ya y kw, configured s "arithmetic" "continuum" "mean" -> sample xa x -> no_trimming kw -> (2 <= length x)%nat -> ~ constant x ->
  k_y kw = Some ya -> sample ya y -> length y = length x -> k_order kw = None ->
  exists v cov, fit_result dc s xa kw = Ok v /\ cov = (if biascorr kw then INR (length x) / (INR (length x) - 1) else 1) * covariance_of x y /\ 0 <= v /\
    (k_alpha kw = None \/ k_alpha kw = Some 1 -> v = cov * cov) /\
    (forall a b xa', 0 < a -> sample xa' (affine a b x) ->
       fit_result dc s xa' kw = Ok (Rpower a (1 + match k_alpha kw with Some al => al | None => 1 end) * v)).
Proof.
  intros dc s xa x ya y kw Hc Hs Ht Hl Hn Hy Hsy Hly Ho. pose proof (len_pos_ne x 1 Hl) as Hx.
  pose proof (variance_pos x Hx Hn) as Hv. pose proof (bessel_pos (biascorr kw) (length x) Hl) as Hb.
  set (f := bessel (biascorr kw) (length x)) in *.
  assert (Hs0 : 0 < sqrt (variance_of x * f)) by (apply sqrt_lt_R0, Rmult_lt_0_compat; auto).
  eexists. exists (f * covariance_of x y). split; [apply (fit_continuum dc s xa x ya y kw); auto|]. fold f. cbv zeta. split; [reflexivity|].
  rewrite Rpowr_pos by auto. set (al := dflt (k_alpha kw) 1).
  assert (Hal : match k_alpha kw with Some al => al | None => 1 end = al) by (unfold al; destruct (k_alpha kw); reflexivity). rewrite Hal.
  assert (Hp : 0 < Rpower (sqrt (variance_of x * f)) (al - 1)) by apply exp_pos.
  split; [|split].
  - set (k := covariance_of x y * f). replace (k * (k * Rpower (sqrt (variance_of x * f)) (al - 1))) with (k * k * Rpower (sqrt (variance_of x * f)) (al - 1)) by ring. apply Rmult_le_pos; [nra|lra].
  - intros E. assert (al = 1) as -> by (unfold al; destruct E as [E|E]; rewrite E; reflexivity).
    rewrite Rminus_diag_eq, Rpower_O by auto. ring.
  - intros a b xa' Ha Hs'. rewrite (fit_continuum dc s xa' (affine a b x) ya y kw) by (rewrite ?affine_length; auto; apply affine_ne; auto).
    cbv zeta. rewrite affine_length. fold f. rewrite variance_affine, cov_affine_l by auto.
    assert (sqrt (a * a * variance_of x * f) = a * sqrt (variance_of x * f)) as ->.
    { rewrite Rmult_assoc, sqrt_mult; [rewrite sqrt_square by lra; reflexivity|nra|]. apply Rmult_le_pos; lra. }
    rewrite Rpowr_pos by (apply Rmult_lt_0_compat; auto). fold al.
    rewrite <- Rpower_mult_distr by auto. f_equal. fold f.
    replace (1 + al) with (1 + 1 + (al - 1)) by ring. rewrite !Rpower_plus, Rpower_1 by auto. ring.
Qed.
