(** Evaluation of fit for the arithmetic modes. *)

From Coq Require Import String Reals List Arith ZArith Bool Lia Lra Psatz.
Import ListNotations.
From Verif Require Import Num Err Vec VecR OrdR L_Mat S_Stats L_Stats M_Utils M_Preproc L_Radial M_Dicomo S_Dicomo L_Dicomo.
Import List. Open Scope R_scope.

Ltac dsimp := cbn [d_est d_mode d_center d_moment d_xmom d_ymom d_como mode_of String.eqb Ascii.eqb Bool.eqb smem existsb orb andb negb
  with_center with_moment with_xmom with_ymom with_como step bind local fst snd l_mode l_x l_y l_c l_x2 l_y2 dflt Nat.ltb Nat.leb Nat.eqb].

Lemma sample_col : forall xa x, sample xa x -> acol xa = x.
Proof.
  intros xa x [->| ->]; auto. cbn [acol]. unfold col. rewrite map_map. cbn. apply map_id.
Qed.
Lemma sample_len : forall xa x, sample xa x -> alen xa = length x.
Proof. intros xa x [->| ->]; auto. cbn [alen]. apply map_length. Qed.
Lemma no_trimming_t : forall kw, no_trimming kw -> dflt (k_trim kw) (@n0 R Num_R) = 0.
Proof. intros kw [E|E]; rewrite E; reflexivity. Qed.
Lemma len_eqb0 : forall {B} (x : list B), x <> [] -> (length x =? 0)%nat = false.
Proof. intros B [|a x] Hx; [congruence|reflexivity]. Qed.
Lemma eqb0 : Reqb 0 0 = true. Proof. apply Reqb_refl. Qed.

Section Fit.
  Context (dc : dcor_env R).

  Ltac start s xa x kw :=
    let C1 := fresh in let C2 := fresh in let C3 := fresh in
    intros [C1 [C2 C3]] Hs Ht Hx; destruct s as [e m c mo xm ym co]; cbn [d_est d_mode d_center] in C1, C2, C3; subst e m c;
    unfold fit_result, dicomo_fit; rewrite (no_trimming_t kw Ht); dsimp;
    rewrite (sample_len xa x Hs), (len_eqb0 x Hx); unfold fit_arithmetic; dsimp;
    rewrite (no_trimming_t kw Ht), (sample_col xa x Hs), ?(sample_len xa x Hs).

  Lemma fit_var : forall s xa x kw, configured s "arithmetic" "var" "mean" -> sample xa x -> no_trimming kw -> x <> [] ->
    fit_result dc s xa kw = Ok (variance_of x * bessel (biascorr kw) (length x)).
  Proof.
    intros s xa x kw. start s xa x kw. rewrite trim_mom_2, fsfac_2. dsimp.
    unfold fit_tail. dsimp. rewrite cov_self_variance. reflexivity.
  Qed.

  Lemma fit_cov : forall s xa x ya y kw, configured s "arithmetic" "cov" "mean" -> sample xa x -> no_trimming kw -> x <> [] ->
    k_y kw = Some ya -> sample ya y -> length y = length x ->
    fit_result dc s xa kw = Ok (covariance_of x y * bessel (biascorr kw) (length x)).
  Proof.
    intros s xa x ya y kw H Hs Ht Hx Hy Hsy Hl. revert H Hs Ht Hx. start s xa x kw.
    unfold get_y. rewrite Hy. dsimp. rewrite (sample_len ya y Hsy), Hl, (len_eqb0 x Hx), Nat.eqb_refl. dsimp.
    rewrite (sample_col ya y Hsy), trim_mom_2, fsfac_2. dsimp.
    rewrite andb_false_r. dsimp. unfold fit_tail. dsimp. reflexivity.
  Qed.

  Lemma fit_corr : forall s xa x ya y kw, configured s "arithmetic" "corr" "mean" -> sample xa x -> no_trimming kw -> x <> [] ->
    k_y kw = Some ya -> sample ya y -> length y = length x -> k_order kw = None ->
    fit_result dc s xa kw = Ok (covariance_of x y * bessel (biascorr kw) (length x) /
       (sqrt (variance_of x * bessel (biascorr kw) (length x)) * sqrt (variance_of y * bessel (biascorr kw) (length x)))).
  Proof.
    intros s xa x ya y kw H Hs Ht Hx Hy Hsy Hl Ho. revert H Hs Ht Hx. start s xa x kw.
    rewrite Ho. dsimp.
    rewrite trim_mom_2, fsfac_2. dsimp.
    unfold get_y. rewrite Hy. dsimp. rewrite (sample_len ya y Hsy), Hl, (len_eqb0 x Hx), Nat.eqb_refl. dsimp.
    rewrite (sample_col ya y Hsy), !trim_mom_2, !fsfac_2. dsimp.
    rewrite andb_false_r. dsimp. unfold fit_tail. dsimp. rewrite Hl, !cov_self_variance. reflexivity.
  Qed.

  Lemma fit_std : forall s xa x kw c, configured s "arithmetic" "std" c -> sample xa x -> no_trimming kw -> x <> [] ->
    fit_result dc s xa kw = Ok (variance_of x * bessel (biascorr kw) (length x) / sqrt (variance_of x)).
  Proof.
    intros s xa x kw c0. start s xa x kw. rewrite !trim_mom_2, fsfac_2. dsimp. fold (biascorr kw).
    unfold fit_tail, div_power. dsimp. change (dflt (k_bias kw) false) with (biascorr kw).
    unfold fsfac. rewrite Rmult_1_r, cov_self_variance. destruct (biascorr kw); reflexivity.
  Qed.

  Lemma fit_skew : forall s xa x kw c, configured s "arithmetic" "skew" c -> sample xa x -> no_trimming kw -> x <> [] ->
    0 < variance_of x -> (k_option kw = None \/ exists o, k_option kw = Some o /\ (o <= 3)%nat) ->
    fit_result dc s xa kw = Ok (if biascorr kw
      then skewness x * (INR (length x) / ((INR (length x) - 1) * (INR (length x) - 2))) * ((INR (length x) - 1) * (INR (length x) - 1)) /
           sqrt (INR (length x) * INR (length x) - INR (length x))
      else skewness x).
  Proof.
    intros s xa x kw c0 H Hs Ht Hx Hv Ho. revert H Hs Ht Hx. start s xa x kw.
    rewrite !trim_mom_2, !trim_mom_ge2 by lia. dsimp. unfold fit_tail, div_power. dsimp.
    change (dflt (k_bias kw) false) with (biascorr kw).
    rewrite fsfac_3, cmoment_comoment_gen, ntrim_0.
    replace (3 - dflt (k_option kw) 1 + dflt (k_option kw) 1)%nat with 3%nat
      by (destruct Ho as [->|[o [-> Ho]]]; cbn [dflt]; lia).
    unfold fsfac. rewrite Rmult_1_r, cov_self_variance, <- cmoment2_variance in *. rnum.
    rewrite Rpowr_pos by auto.
    destruct (biascorr kw).
    - rewrite !nZ_R, !minus_IZR, !mult_IZR, !minus_IZR, <- !INR_IZR_INZ.
      f_equal. unfold skewness, Rdiv. ring.
    - f_equal. unfold skewness. rewrite Rmult_1_r. reflexivity.
  Qed.

  Lemma fit_kurt : forall s xa x kw c, configured s "arithmetic" "kurt" c -> sample xa x -> no_trimming kw -> x <> [] ->
    (k_option kw = None \/ exists o, k_option kw = Some o /\ (o <= 4)%nat) ->
    fit_result dc s xa kw = Ok (if biascorr kw
      then let k := kurtosis x * (INR (length x) / ((INR (length x) - 2) * (INR (length x) - 3))) in
           k * INR (length x) - k / INR (length x)
           - 3 * ((INR (length x) - 1) * (INR (length x) - 1)) / ((INR (length x) - 2) * (INR (length x) - 3))
           + (if dflt (k_fisher kw) true then 0 else 3)
      else kurtosis x).
  Proof.
    intros s xa x kw c0 H Hs Ht Hx Ho. revert H Hs Ht Hx. start s xa x kw.
    rewrite !trim_mom_2, !trim_mom_ge2 by lia. dsimp. unfold fit_tail, div_power. dsimp.
    change (dflt (k_bias kw) false) with (biascorr kw).
    rewrite fsfac_4, cmoment_comoment_gen, ntrim_0.
    replace (4 - dflt (k_option kw) 1 + dflt (k_option kw) 1)%nat with 4%nat
      by (destruct Ho as [->|[o [-> Ho]]]; cbn [dflt]; lia).
    unfold fsfac. rewrite Rmult_1_r, cov_self_variance, <- cmoment2_variance in *. rewrite npow_R. rnum.
    destruct (biascorr kw).
    - rewrite !nZ_R, !mult_IZR, !minus_IZR, <- !INR_IZR_INZ. rewrite nnat_R.
      destruct (dflt (k_fisher kw) true); cbn [negb]; f_equal; unfold kurtosis, Rdiv; cbn [INR]; ring.
    - f_equal. unfold kurtosis. rewrite Rmult_1_r. reflexivity.
  Qed.

  (** co-skewness and co-kurtosis *)
  Definition cosd (mode : string) (kw : dkw R) (x y : list R) : R :=
    let n := INR (length x) in
    let b := biascorr kw in
    let o := dflt (k_option kw) 1%nat in
    let ord := if (mode =? "cok")%string then 4%nat else 3%nat in
    let c1 := comoment (ord - o) o x y * (if b then (if (mode =? "cok")%string then n / ((n - 2) * (n - 3)) else n / ((n - 1) * (n - 2))) * n else 1) in
    let c2 := if (mode =? "cok")%string && b then c1 - c1 / (n * n) - 3 * ((n - 1) * (n - 1)) / ((n - 2) * (n - 3)) else c1 in
    if dflt (k_std kw) true
    then c2 / sqrt (variance_of x * bessel b (length x)) ^ (ord - o) / sqrt (variance_of y * bessel b (length x)) ^ o
         + (if (mode =? "cok")%string && negb (dflt (k_fisher kw) true) then 3 else 0)
    else c1.

  Lemma fit_cos : forall s xa x ya y kw c, configured s "arithmetic" "cos" c -> sample xa x -> no_trimming kw -> x <> [] ->
    k_y kw = Some ya -> sample ya y -> length y = length x ->
    fit_result dc s xa kw = Ok (cosd "cos" kw x y).
  Proof.
    intros s xa x ya y kw c0 H Hs Ht Hx Hy Hsy Hl. revert H Hs Ht Hx. start s xa x kw.
    unfold get_y. rewrite Hy. dsimp. rewrite (sample_len ya y Hsy), Hl, (len_eqb0 x Hx), Nat.eqb_refl. dsimp.
    rewrite (sample_col ya y Hsy). rewrite !trim_mom_2, !trim_mom_ge2 by lia. dsimp.
    rewrite !fsfac_2, fsfac_3, ntrim_0. unfold fit_tail. dsimp.
    rewrite !cov_self_variance. rewrite nZ_R, <- INR_IZR_INZ. rewrite !npow_R. rewrite Hl.
    unfold cosd. dsimp. change (dflt (k_bias kw) false) with (biascorr kw).
    destruct (dflt (k_std kw) true) eqn:Es; dsimp; [|destruct (biascorr kw); dsimp; f_equal; rnum; ring].
    destruct (biascorr kw); dsimp; f_equal; rnum; rewrite ?(npow_R (sqrt (variance_of y * _))); unfold Rdiv; ring.
  Qed.

  Lemma fit_cok : forall s xa x ya y kw c, configured s "arithmetic" "cok" c -> sample xa x -> no_trimming kw -> x <> [] ->
    k_y kw = Some ya -> sample ya y -> length y = length x ->
    fit_result dc s xa kw = Ok (cosd "cok" kw x y).
  Proof.
    intros s xa x ya y kw c0 H Hs Ht Hx Hy Hsy Hl. revert H Hs Ht Hx. start s xa x kw.
    unfold get_y. rewrite Hy. dsimp. rewrite (sample_len ya y Hsy), Hl, (len_eqb0 x Hx), Nat.eqb_refl. dsimp.
    rewrite (sample_col ya y Hsy). rewrite !trim_mom_2, !trim_mom_ge2 by lia. dsimp.
    rewrite !fsfac_2, fsfac_4, ntrim_0. unfold fit_tail. dsimp.
    rewrite !cov_self_variance. rewrite !nZ_R, !mult_IZR, !minus_IZR, <- !INR_IZR_INZ. rewrite !npow_R. rewrite Hl.
    unfold cosd. dsimp. change (dflt (k_bias kw) false) with (biascorr kw). rewrite ?nnat_R.
    destruct (dflt (k_std kw) true) eqn:Es; dsimp; [|destruct (biascorr kw); dsimp; f_equal; rnum; ring].
    destruct (dflt (k_fisher kw) true); destruct (biascorr kw); dsimp; f_equal; rnum; rewrite ?(npow_R (sqrt (variance_of y * _))); cbn [INR]; unfold Rdiv; ring.
  Qed.

  Lemma fit_continuum : forall s xa x ya y kw, configured s "arithmetic" "continuum" "mean" -> sample xa x -> no_trimming kw -> x <> [] ->
    k_y kw = Some ya -> sample ya y -> length y = length x -> k_order kw = None ->
    fit_result dc s xa kw = Ok (let c := covariance_of x y * bessel (biascorr kw) (length x) in
       c * (c * Rpowr (sqrt (variance_of x * bessel (biascorr kw) (length x))) (dflt (k_alpha kw) 1 - 1))).
  Proof.
    intros s xa x ya y kw H Hs Ht Hx Hy Hsy Hl Ho. revert H Hs Ht Hx. start s xa x kw.
    rewrite Ho. dsimp.
    rewrite trim_mom_2, fsfac_2. dsimp.
    unfold get_y. rewrite Hy. dsimp. rewrite (sample_len ya y Hsy), Hl, (len_eqb0 x Hx), Nat.eqb_refl. dsimp.
    rewrite (sample_col ya y Hsy), !trim_mom_2, !fsfac_2. dsimp.
    rewrite andb_false_r. dsimp. unfold fit_tail. dsimp. rewrite !cov_self_variance. reflexivity.
  Qed.
End Fit.
