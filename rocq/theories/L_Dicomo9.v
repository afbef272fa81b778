(** Moments and co-moments of general order through fit. *)

From Coq Require Import String Reals List Arith ZArith Bool Lia Lra Psatz.
Import ListNotations.
From Verif Require Import Num Err Vec VecR OrdR L_Mat S_Stats L_Stats M_Utils M_Preproc M_Dicomo S_Dicomo L_Dicomo L_Dicomo2 L_Dicomo5.
Import List. Open Scope R_scope.

Lemma comoment_self : forall a b x, comoment a b x x = cmoment (a + b) x.
Proof.
  intros a b x. unfold comoment, cmoment. f_equal.
  assert (E : combine x x = map (fun v => (v, v)) x) by (induction x as [|v x IH]; [reflexivity|cbn; f_equal; auto]).
  rewrite E, map_map. apply map_ext. intros v. cbn [fst snd]. rewrite pow_add. reflexivity.
Qed.

Section Fit.
  Context (dc : dcor_env R).

  Ltac start s xa x kw :=
    let C1 := fresh in let C2 := fresh in let C3 := fresh in
    intros [C1 [C2 C3]] Hs Ht Hx; destruct s as [e m c mo xm ym co]; cbn [d_est d_mode d_center] in C1, C2, C3; subst e m c;
    unfold fit_result, dicomo_fit; rewrite (no_trimming_t kw Ht); dsimp;
    rewrite (sample_len xa x Hs), (len_eqb0 x Hx); unfold fit_arithmetic; dsimp;
    rewrite (no_trimming_t kw Ht), (sample_col xa x Hs), ?(sample_len xa x Hs).

  Lemma C102_mom_l : forall s xa x kw k o, configured s "arithmetic" "mom" "mean" -> sample xa x -> no_trimming kw -> x <> [] ->
    k_order kw = Some k -> dflt (k_option kw) 1%nat = o -> (o <= k)%nat -> biascorr kw = false ->
    fit_result dc s xa kw = (match k with O => Err AttributeError | 1%nat => Ok (mean_of x) | _ => Ok (cmoment k x) end).
  Proof.
    intros s xa x kw k o H Hs Ht Hx Hk Ho Hle Hb. revert H Hs Ht Hx. start s xa x kw. rewrite Hk. dsimp. change (dflt (k_bias kw) false) with (biascorr kw). rewrite Hb, Ho.
    destruct k as [|[|k]].
    - cbn [trim_mom]. dsimp. reflexivity.
    - cbn [trim_mom locest]. rewrite dtrim_mean_0. dsimp. unfold fit_tail. dsimp. reflexivity.
    - rewrite trim_mom_ge2 by lia. dsimp. unfold fit_tail. dsimp. unfold fsfac. rewrite Rmult_1_r, comoment_self. f_equal. f_equal.
      destruct k as [|k]; [reflexivity|]. cbn [Nat.ltb Nat.leb]. lia.
  Qed.
  Lemma C102_com_l : forall s xa x ya y kw k o, configured s "arithmetic" "com" "mean" -> sample xa x -> no_trimming kw -> x <> [] ->
    k_y kw = Some ya -> sample ya y -> length y = length x ->
    k_order kw = Some k -> dflt (k_option kw) 1%nat = o -> (o <= k)%nat -> (2 <= k)%nat -> biascorr kw = false ->
    fit_result dc s xa kw = Ok (if (k =? 2)%nat then covariance_of x y else comoment (k - o) o x y).
  Proof.
    intros s xa x ya y kw k o H Hs Ht Hx Hy Hsy Hl Hk Ho Hle H2 Hb. revert H Hs Ht Hx. start s xa x kw. rewrite Hk. dsimp. change (dflt (k_bias kw) false) with (biascorr kw). rewrite Hb, Ho.
    unfold get_y. rewrite Hy. dsimp. rewrite (sample_len ya y Hsy), Hl, (len_eqb0 x Hx), Nat.eqb_refl. dsimp.
    rewrite (sample_col ya y Hsy), trim_mom_ge2 by auto. dsimp. unfold fit_tail. dsimp. unfold fsfac. rewrite Rmult_1_r. f_equal.
    destruct k as [|[|[|k]]]; try lia; reflexivity.
  Qed.
End Fit.
