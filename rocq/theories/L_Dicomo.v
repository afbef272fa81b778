(** Lemmas about the arithmetic (co-)moments. *)

From Coq Require Import String Reals List Arith ZArith Bool Lia Lra Psatz.
Import ListNotations.
From Verif Require Import Num Err Vec VecR OrdR L_Mat S_Stats L_Stats M_Utils M_Preproc L_Radial M_Dicomo S_Dicomo.
Import List. Open Scope R_scope.

Lemma map2_combine : forall {B C D} (f : B -> C -> D) u v, map2 f u v = map (fun p => f (fst p) (snd p)) (combine u v).
Proof. intros B C D f u. induction u as [|a u IH]; intros [|b v]; cbn; auto. rewrite IH; auto. Qed.

Lemma combine_self : forall {B} (x : list B), combine x x = map (fun v => (v, v)) x.
Proof. intros B x. induction x as [|a x IH]; cbn; auto. rewrite IH; auto. Qed.

(** centred samples *)
Definition cent (x : list R) : list R := map (fun v => v - mean_of x) x.
Lemma cent_length : forall x, length (cent x) = length x.
Proof. intros; unfold cent; apply map_length. Qed.

Lemma sum_of_vsum' : forall l, sum_of l = vsum l. Proof. reflexivity. Qed.

Lemma covariance_dot : forall x y, length x = length y -> covariance_of x y = dot (cent x) (cent y) / INR (length x).
Proof.
  intros x y Hl. unfold covariance_of, comoment, mean_of at 1. rewrite map_length, combine_length, <- Hl, Nat.min_id.
  f_equal. unfold dot, cent. rewrite map2_map_l, map2_map_r, map2_combine. rewrite sum_of_vsum'. f_equal.
  apply map_ext. intros [a b]; cbn [fst snd]. rnum. ring.
Qed.

Lemma cmoment_comoment_gen : forall a b x, comoment a b x x = cmoment (a + b) x.
Proof.
  intros a b x. unfold comoment, cmoment. rewrite combine_self, map_map. f_equal. apply map_ext. intros v. cbn [fst snd].
  rewrite pow_add. reflexivity.
Qed.
Lemma cmoment2_variance : forall x, cmoment 2 x = variance_of x.
Proof. reflexivity. Qed.
Lemma cov_self_variance : forall x, covariance_of x x = variance_of x.
Proof. intros. unfold covariance_of. rewrite cmoment_comoment_gen. reflexivity. Qed.

Lemma variance_dot : forall x, variance_of x = dot (cent x) (cent x) / INR (length x).
Proof. intros. rewrite <- cov_self_variance. apply covariance_dot; auto. Qed.

Lemma mean_affine : forall a b x, x <> [] -> mean_of (affine a b x) = a * mean_of x + b.
Proof. intros a b x Hx. unfold affine. rewrite !mean_of_vmean. rewrite (vmean_affine a b x Hx). reflexivity. Qed.

Lemma cent_affine : forall a b x, x <> [] -> cent (affine a b x) = vscale a (cent x).
Proof.
  intros a b x Hx. unfold cent at 1. rewrite mean_affine by auto. unfold affine, vscale, cent. rewrite !map_map.
  apply map_ext. intros v. rnum. ring.
Qed.

Lemma cov_affine_l : forall a b x y, length x = length y -> x <> [] -> covariance_of (affine a b x) y = a * covariance_of x y.
Proof.
  intros a b x y Hl Hx. rewrite !covariance_dot by (unfold affine; rewrite ?map_length; auto).
  rewrite cent_affine, dot_vscale_l by auto. unfold affine; rewrite map_length. unfold Rdiv; ring.
Qed.
Lemma cov_sym : forall x y, length x = length y -> covariance_of x y = covariance_of y x.
Proof. intros x y Hl. rewrite !covariance_dot by auto. rewrite dot_comm, Hl. reflexivity. Qed.

Lemma plus_l_length : forall x z, length x = length z -> length (plus_l x z) = length x.
Proof. intros x z Hl. unfold plus_l. rewrite map_length, combine_length, <- Hl. apply Nat.min_id. Qed.
Lemma plus_l_vadd : forall x z, plus_l x z = vadd x z.
Proof. intros. unfold plus_l, vadd. rewrite map2_combine. reflexivity. Qed.
Lemma vsum_vadd : forall x z : list R, length x = length z -> vsum (vadd x z) = vsum x + vsum z.
Proof.
  induction x as [|a x IH]; intros [|c z] Hl; cbn in Hl; try discriminate; [cbn; ring|].
  change (vsum (vadd (a :: x) (c :: z))) with ((a + c) + vsum (vadd x z)). rewrite IH by lia.
  rewrite !vsum_cons. ring.
Qed.
Lemma mean_plus : forall x z, length x = length z -> mean_of (plus_l x z) = mean_of x + mean_of z.
Proof.
  intros x z Hl. unfold mean_of. rewrite plus_l_length, plus_l_vadd by auto. change sum_of with (@vsum R Num_R). rewrite vsum_vadd, Hl by auto. unfold Rdiv; ring.
Qed.
Lemma cent_plus : forall x z, length x = length z -> cent (plus_l x z) = vadd (cent x) (cent z).
Proof.
  intros x z Hl. unfold cent at 1. rewrite mean_plus by auto. rewrite plus_l_vadd. unfold vadd, cent.
  rewrite map2_map_l, map2_map_r, map_map2. apply map2_ext. intros. rnum. ring.
Qed.
Lemma cov_plus_l : forall x z y, length x = length y -> length z = length y ->
  covariance_of (plus_l x z) y = covariance_of x y + covariance_of z y.
Proof.
  intros x z y Hx Hz. rewrite !covariance_dot by (rewrite ?plus_l_length; auto; congruence).
  rewrite cent_plus by congruence. rewrite dot_vadd_l by (rewrite !cent_length; congruence).
  rewrite plus_l_length by congruence. rewrite Hx, Hz. unfold Rdiv; ring.
Qed.

Lemma variance_nonneg : forall x, 0 <= variance_of x.
Proof. intros. rewrite variance_of_vvar. apply vvar_nonneg. Qed.
Lemma variance_affine : forall a b x, x <> [] -> variance_of (affine a b x) = a * a * variance_of x.
Proof.
  intros a b x Hx. rewrite !variance_dot, cent_affine, dot_vscale_l, dot_vscale_r by auto. unfold affine; rewrite map_length. unfold Rdiv; ring.
Qed.
Lemma variance_zero_iff : forall x, x <> [] -> (variance_of x = 0 <-> constant x).
Proof.
  intros x Hx. split.
  - intros Hv. rewrite variance_of_vvar in Hv. apply vvar_zero_const in Hv. rewrite Forall_forall in Hv.
    intros u v Hu Hw. rewrite (Hv u Hu), (Hv v Hw). reflexivity.
  - intros Hc. destruct x as [|a x]; [congruence|]. rewrite variance_dot.
    assert (Hm : mean_of (a :: x) = a).
    { rewrite mean_of_vmean. assert (a <= vmean (a :: x) <= a); [|lra]. apply vmean_bounds; [discriminate|].
      apply Forall_forall. intros v Hv. rewrite (Hc v a Hv (or_introl eq_refl)). lra. }
    rewrite dot_zero_l; [unfold Rdiv; ring|]. unfold cent. rewrite Hm. apply Forall_forall. intros w Hw.
    apply in_map_iff in Hw as [v [<- Hv]]. rewrite (Hc v a Hv (or_introl eq_refl)). ring.
Qed.

Lemma variance_pos : forall x, x <> [] -> ~ constant x -> 0 < variance_of x.
Proof.
  intros x Hx Hc. destruct (Rle_lt_or_eq_dec 0 (variance_of x) (variance_nonneg x)) as [Hl|He]; auto.
  exfalso. apply Hc. apply variance_zero_iff; auto.
Qed.

Lemma cov_sq_le : forall x y, length x = length y -> x <> [] -> (covariance_of x y) * (covariance_of x y) <= variance_of x * variance_of y.
Proof.
  intros x y Hl Hx. rewrite covariance_dot, !variance_dot by auto. rewrite <- Hl.
  pose proof (INR_len_pos x Hx) as Hn. pose proof (cauchy_schwarz_sq (cent x) (cent y)) as Hcs.
  rewrite !cent_length in Hcs. specialize (Hcs Hl).
  assert (0 < / INR (length x)) by (apply Rinv_0_lt_compat; auto). unfold Rdiv.
  set (k := / INR (length x)) in *. nra.
Qed.

(* ------------------------------------------------------------------ *)
(** evaluation of the model *)
Lemma Int_part_half : forall n, Int_part (INR n + 1 / 2) = Z.of_nat n.
Proof.
  intros n. unfold Int_part. assert (Z.of_nat n + 1 = up (INR n + 1 / 2))%Z as <-.
  { apply tech_up; rewrite plus_IZR, <- INR_IZR_INZ; lra. } lia.
Qed.
Lemma ntrim_0 : forall n, ntrim_of (A:=R) n 0 = Z.of_nat n.
Proof.
  intros n. unfold ntrim_of, nround. rewrite nnat_R. rnum. replace (INR n * (1 - 0)) with (INR n) by ring.
  rewrite Int_part_half. rewrite nZ_R, <- INR_IZR_INZ. assert (Reqb (INR n) (INR n + 1 / 2) = false) as ->; [apply Reqb_false; lra|reflexivity].
Qed.
Lemma dtrim_mean_0 : forall v : list R, dtrim_mean 0 v = Ok (mean_of v).
Proof. intros. unfold dtrim_mean. rnum. rewrite Reqb_refl, mean_of_vmean. reflexivity. Qed.

Definition fsfac (n order : nat) (b : bool) : R := if b then INR n / IZR (fs_prod (Z.of_nat n) order) else 1.

Lemma trim_mom_ge2 : forall x y order opt b, (2 <= order)%nat ->
  trim_mom x y false order 0 opt b =
  Ok (comoment (if (2 <? order)%nat then order - opt else 1) (if (2 <? order)%nat then opt else 1) x y * fsfac (length x) order b).
Proof.
  intros x y order opt b Ho. destruct order as [|[|o]]; [lia|lia|]. unfold trim_mom.
  rewrite !dtrim_mean_0. cbn [bind]. rewrite dtrim_mean_0. cbn [bind]. f_equal. unfold fsfac. rewrite ntrim_0.
  assert ((if b then nZ (Z.of_nat (length x)) /! nZ (fs_prod (Z.of_nat (length x)) (S (S o))) else n1)%num =
          (if b then INR (length x) / IZR (fs_prod (Z.of_nat (length x)) (S (S o))) else 1)) as ->.
  { destruct b; [|reflexivity]. rewrite !nZ_R, <- INR_IZR_INZ. reflexivity. }
  rnum. f_equal. unfold comoment. f_equal. rewrite map2_combine. apply map_ext. intros [u v]; cbn [fst snd].
  rewrite !npow_R. reflexivity.
Qed.
Lemma trim_mom_2 : forall x y opt b, trim_mom x y false 2 0 opt b = Ok (covariance_of x y * fsfac (length x) 2 b).
Proof. intros. rewrite trim_mom_ge2 by lia. reflexivity. Qed.

Lemma fsfac_2 : forall n b, fsfac n 2 b = bessel b n.
Proof.
  intros n [|]; unfold fsfac, bessel; auto. cbn [fs_prod Nat.max Nat.sub seq map fold_right Z.of_nat]. unfold fs_prod. cbn [Nat.max Nat.sub seq map fold_right].
  rewrite Z.mul_1_r, minus_IZR, <- INR_IZR_INZ. reflexivity.
Qed.
Lemma fsfac_3 : forall n b, fsfac n 3 b = if b then INR n / ((INR n - 1) * (INR n - 2)) else 1.
Proof.
  intros n [|]; unfold fsfac; auto. unfold fs_prod. cbn [Nat.max Nat.sub seq map fold_right].
  rewrite Z.mul_1_r, mult_IZR, !minus_IZR, <- INR_IZR_INZ. reflexivity.
Qed.
Lemma fsfac_4 : forall n b, fsfac n 4 b = if b then INR n / ((INR n - 2) * (INR n - 3)) else 1.
Proof.
  intros n [|]; unfold fsfac; auto. unfold fs_prod. cbn [Nat.max Nat.sub seq map fold_right].
  rewrite Z.mul_1_r, mult_IZR, !minus_IZR, <- INR_IZR_INZ. reflexivity.
Qed.
Lemma bessel_pos : forall b n, (2 <= n)%nat -> 0 < bessel b n.
Proof.
  intros [|] n Hn; unfold bessel; [|lra]. assert (2 <= INR n) by (apply (le_INR 2); auto).
  apply Rdiv_lt_0_compat; lra.
Qed.
