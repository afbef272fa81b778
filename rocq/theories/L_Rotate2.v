(** Lemmas for C166-C168: centres, kstepLTS in other units, Wrapper. *)

From Coq Require Import Reals List Arith ZArith Bool Lia Lra Permutation Sorted.
Import ListNotations.
From Verif Require Import Num Err Vec VecR OrdR L_Mat S_Stats S_Radial S_Rotate L_Stats M_Utils M_Preproc M_Robcent M_Gsspp
  L_Scaling L_Scaling2 L_Lin L_Preproc L_Radial L_Snipls L_Rotate.
Open Scope R_scope.

Definition ident (p : nat) : list (list R) := map (fun i => map (fun j => if (i =? j)%nat then 1 else 0) (seq 0 p)) (seq 0 p).
Lemma ident_mget : forall p i j, (i < p)%nat -> (j < p)%nat -> mget (ident p) i j = if (i =? j)%nat then 1 else 0.
Proof.
  intros p i j Hi Hj. unfold mget, ident. rewrite (nth_map_lt _ _ _ O) by (rewrite seq_length; auto). rewrite seq_nth by auto.
  rewrite nth_map_seq by auto. reflexivity.
Qed.
Lemma ident_matrix : forall p, is_matrix p p (ident p).
Proof.
  intros p. unfold ident. split; [rewrite map_length, seq_length; reflexivity|]. apply Forall_forall. intros r Hr.
  apply in_map_iff in Hr as (i & <- & _). rewrite map_length, seq_length. reflexivity.
Qed.
Lemma sumn_pick : forall p b (g : nat -> R), (b < p)%nat -> sumn p (fun k => g k * (if (k =? b)%nat then 1 else 0)) = g b.
Proof.
  intros p b g Hb. rewrite <- (sumn_delta p b g) by auto. apply sumn_ext. intros k Hk. destruct (Nat.eqb_spec k b); destruct (Nat.eqb_spec b k); subst; try lia; lra.
Qed.
Lemma ident_rotation : forall p, rotation p (ident p).
Proof.
  intros p. split; [apply ident_matrix|]. intros a b Ha Hb.
  assert (W := ident_matrix p). split.
  - rewrite inner_dot. rewrite (dot_sumn _ _ p) by (apply (wf_nth_row p p); auto).
    rewrite (sumn_ext p _ (fun k => (if (a =? k)%nat then 1 else 0) * (if (k =? b)%nat then 1 else 0))).
    + rewrite (sumn_pick p b (fun k => if (a =? k)%nat then 1 else 0)) by auto. reflexivity.
    + intros k Hk. pose proof (ident_mget p a k Ha Hk) as E1. pose proof (ident_mget p b k Hb Hk) as E2. unfold mget in E1, E2. rnum. cbn in E1, E2. rewrite E1, E2.
      rewrite (Nat.eqb_sym k b). reflexivity.
  - rewrite inner_dot. change (column a (ident p)) with (col a (ident p)). change (column b (ident p)) with (col b (ident p)). rewrite (dot_sumn _ _ p) by (rewrite col_length; apply (wf_length p p); auto).
    rewrite (sumn_ext p _ (fun k => (if (k =? a)%nat then 1 else 0) * (if (k =? b)%nat then 1 else 0))).
    + rewrite (sumn_pick p b (fun k => if (k =? a)%nat then 1 else 0)) by auto. rewrite Nat.eqb_sym. reflexivity.
    + intros k Hk. pose proof (nth_col (ident p) k a) as E1. pose proof (nth_col (ident p) k b) as E2. rnum. cbn in E1, E2. rewrite E1, E2. 
      pose proof (ident_mget p k a Hk Ha) as F1. pose proof (ident_mget p k b Hk Hb) as F2. rewrite F1, F2. reflexivity.
Qed.
Lemma rescaled_moved : forall p c v r, length r = p -> rescaled p c v r = moved p c (ident p) v r.
Proof.
  intros p c v r Hr. unfold rescaled, moved. apply map_ext_in. intros j Hj. apply in_seq in Hj. f_equal. f_equal.
  rewrite nth_rotated_sumn by (auto using ident_matrix; lia). 
  rewrite (sumn_ext p _ (fun k => nth k r 0 * (if (k =? j)%nat then 1 else 0))).
  - rewrite (sumn_pick p j (fun k => nth k r 0)) by lia. reflexivity.
  - intros k Hk. rewrite ident_mget by lia. reflexivity.
Qed.

(* ------------------------------------------------------------------ *)
(** the scaler's centre for data that are moved *)
Lemma scaler_centre : forall (env : prep_env R) co n p X m, is_matrix n p X -> (2 <= n)%nat -> co <> CBad ->
  location env co 0 X = Ok m -> exists st, sc_fit env (new_scaler co SNone 0) (A2 X) = (st, Ok tt) /\ a_center st = Some m.
Proof.
  intros env co n p X m HX Hn Hc E. eexists. split.
  - eapply fit_ok_intro; cbn [new_scaler sc_center sc_scale sc_trimming]; rewrite ?(check_input_id n p X) by auto.
    + exact E.
    + reflexivity.
    + apply check_trimming_R. lra.
    + destruct co; [reflexivity..| |reflexivity]; congruence.
  - reflexivity.
Qed.
Lemma l1opt_moved : forall n p X Q c v a a', is_matrix n p X -> ~ on_a_line p X -> rotation p Q -> 0 < c ->
  spatial_median_of p X a -> spatial_median_of p (map (moved p c Q v) X) a' -> a' = moved p c Q v a.
Proof.
  intros n p X Q c v a a' HX Hno HQ Hc Ha Ha'.
  destruct (moved_onto p c Q v a' HQ Hc (proj1 Ha')) as (b & Hb & <-). f_equal.
  apply (spatial_median_unique n p X); auto. split; auto. intros d Hd.
  destruct Ha' as [_ Ha']. specialize (Ha' (moved p c Q v d) (moved_length _ _ _ _ _)).
  rewrite !(total_distance_moved n) in Ha' by (auto; lra). nra.
Qed.

(* ------------------------------------------------------------------ *)
(** kstepLTS *)
Lemma lts_iter_moved : forall k n p c Q v X m, is_matrix n p X -> (1 <= n)%nat -> (1 <= p)%nat -> rotation p Q -> 0 < c -> length m = p ->
  Nat.iter k (lts_step (map (moved p c Q v) X)) (moved p c Q v m) = moved p c Q v (Nat.iter k (lts_step X) m) /\ length (Nat.iter k (lts_step X) m) = p.
Proof.
  induction k as [|k IH]; intros n p c Q v X m HX Hn Hp HQ Hc Hm; [split; [reflexivity|exact Hm]|].
  destruct (IH n p c Q v X m HX Hn Hp HQ Hc Hm) as [E L]. change (lts_step (map (moved p c Q v) X) (Nat.iter k (lts_step (map (moved p c Q v) X)) (moved p c Q v m)) = moved p c Q v (lts_step X (Nat.iter k (lts_step X) m)) /\ length (lts_step X (Nat.iter k (lts_step X) m)) = p). rewrite E. split.
  - apply (lts_step_moved n); auto.
  - apply (lts_step_length n p); auto.
Qed.
Lemma moves_scaled : forall p c v (a b : list R), (1 <= p)%nat -> 0 < c -> length a = p -> length b = p ->
  vmaxl (map nabs (vsub (rescaled p c v a) (rescaled p c v b))) = vmaxl (map nabs (vsub a b)) * c.
Proof.
  intros p c v a b Hp Hc La Lb.
  assert (L : length (vsub a b) = p) by (rewrite vsub_length; congruence).
  rewrite <- vmaxl_scale; [|intros E; apply (f_equal (@length R)) in E; rewrite map_length in E; cbn in E; lia|lra].
  f_equal. rewrite map_map. rewrite !rescaled_moved by auto. rewrite moved_vsub by (auto using ident_matrix).
  apply (list_ext _ _ 0); [rewrite !map_length, vscale_length, rotated_length; lia|]. intros j Hj. rewrite map_length, vscale_length, rotated_length in Hj.
  rewrite !(nth_map_lt _ _ _ 0) by (rewrite ?vscale_length, ?rotated_length; lia).
  rewrite nth_vscale.
  rewrite nth_rotated_sumn by (auto using ident_matrix).
  rewrite (sumn_ext p _ (fun k => nth k (vsub a b) 0 * (if (k =? j)%nat then 1 else 0))) by (intros k Hk; rewrite ident_mget by lia; reflexivity).
  rewrite (sumn_pick p j (fun k => nth k (vsub a b) 0)) by lia. rnum. rewrite Rabs_mult, (Rabs_right c) by lra. ring.
Qed.
Lemma lts_loop_units : forall fuel tol n p c v X m, is_matrix n p X -> (1 <= n)%nat -> (1 <= p)%nat -> 0 < c -> length m = p ->
  let X' := map (rescaled p c v) X in
  lts_loop fuel (c * tol) X' (rescaled p c v m) = (rescaled p c v (fst (lts_loop fuel tol X m)), snd (lts_loop fuel tol X m)).
Proof.
  induction fuel as [|f IH]; intros tol n p c v X m HX Hn Hp Hc Hm X'; [reflexivity|]. cbn [lts_loop]. cbv zeta.
  assert (EX : X' = map (moved p c (ident p) v) X).
  { unfold X'. apply map_ext_in. intros r Hr. apply rescaled_moved. apply (wf_row n p X); auto. }
  assert (Ls : length (lts_step X m) = p) by (apply (lts_step_length n p); auto).
  assert (ES : lts_step X' (rescaled p c v m) = rescaled p c v (lts_step X m)).
  { rewrite EX, !rescaled_moved by auto. apply (lts_step_moved n); auto using ident_rotation. }
  rewrite ES. rewrite moves_scaled by auto.
  assert (ET : nltb (c * tol) (vmaxl (map nabs (vsub m (lts_step X m))) * c) = nltb tol (vmaxl (map nabs (vsub m (lts_step X m))))).
  { set (d := vmaxl _). cbn. unfold Rltb. destruct (Rlt_dec (c * tol) (d * c)), (Rlt_dec tol d); try reflexivity; exfalso; nra. }
  rewrite ET. destruct (nltb tol _); [|reflexivity].
  rewrite (IH tol n p c v X (lts_step X m)) by auto. destruct (lts_loop f tol X (lts_step X m)) as [r k]. reflexivity.
Qed.

(* ------------------------------------------------------------------ *)
(** Wrapper *)
Definition wcol (d : list R) : list R := map (fun x => wrap1 ((x - vmedian d) / vmadR d) * vmadR d + vmedian d) d.
Lemma wrap_form : forall n p (X : list (list R)) loc sca, is_matrix n p X -> (1 <= n)%nat -> (p <= length loc)%nat -> (p <= length sca)%nat ->
  wrap X loc sca = Ok (transpose (map (fun j => wcol (col j X)) (seq 0 p))).
Proof.
  intros n p X loc sca HX Hn Hl Hs. unfold wrap. rewrite (wf_ncols n p) by auto.
  rewrite (mapM_Ok _ (fun j => wcol (col j X))); [reflexivity|]. intros j Hj. apply in_seq in Hj.
  destruct (nth_error loc j) eqn:E1; [|apply nth_error_None in E1; lia].
  destruct (nth_error sca j) eqn:E2; [|apply nth_error_None in E2; lia].
  unfold wrap_univ. cbv zeta.
  assert (Hne : col j X <> []) by (intros E; apply (f_equal (@length R)) in E; rewrite col_length, (wf_length n p X) in E by auto; cbn in E; lia).
  rewrite median_single, mad_single by auto. reflexivity.
Qed.
Lemma wrap_cells : forall n p (X : list (list R)) loc sca, is_matrix n p X -> (1 <= n)%nat -> (1 <= p)%nat -> (p <= length loc)%nat -> (p <= length sca)%nat ->
  exists Y, wrap X loc sca = Ok Y /\ is_matrix n p Y /\ forall i j, (i < n)%nat -> (j < p)%nat -> mget Y i j = nth i (wcol (col j X)) 0.
Proof.
  intros n p X loc sca HX Hn Hp Hl Hs. eexists. split; [apply (wrap_form n p); auto|].
  assert (W : wf p n (map (fun j => wcol (col j X)) (seq 0 p))).
  { split; [rewrite map_length, seq_length; reflexivity|]. apply Forall_forall. intros r Hr. apply in_map_iff in Hr as (j & <- & _).
    unfold wcol. rewrite map_length, col_length. apply (wf_length n p); auto. }
  split; [apply wf_cols; auto|]. intros i j Hi Hj. unfold transpose. rewrite (mget_cols p n) by auto.
  unfold mget. rewrite (nth_map_lt _ _ _ O) by (rewrite seq_length; auto). rewrite seq_nth by auto. reflexivity.
Qed.
Lemma wrap1_odd : forall z : R, wrap1 (- z) = - wrap1 z.
Proof.
  intros z. rewrite !wrap1_R. rewrite Rabs_Ropp. destruct (Rle_dec 4 (Rabs z)); [lra|]. destruct (Rle_dec (3/2) (Rabs z)); [|reflexivity].
  assert (z <> 0) by (intros ->; rewrite Rabs_R0 in *; lra). field. auto.
Qed.
Lemma wcol_affine : forall a b (d : list R) i, d <> [] -> a <> 0 -> vmadR d <> 0 -> (i < length d)%nat ->
  nth i (wcol (map (fun x => a * x + b) d)) 0 = a * nth i (wcol d) 0 + b.
Proof.
  intros a b d i Hd Ha Hm Hi. unfold wcol. rewrite vmedian_affine, vmadR_affine by auto. rewrite map_map.
  rewrite !(nth_map_lt _ _ _ 0) by auto. set (x := nth i d 0). set (m := vmedian d). set (s := vmadR d) in *.
  replace (a * x + b - (a * m + b)) with (a * (x - m)) by ring.
  destruct (Rle_dec 0 a).
  - rewrite Rabs_right by lra. replace (a * (x - m) / (a * s)) with ((x - m) / s) by (field; auto). ring.
  - rewrite Rabs_left by lra. replace (a * (x - m) / (- a * s)) with (- ((x - m) / s)) by (field; auto). rewrite wrap1_odd. ring.
Qed.

(* ------------------------------------------------------------------ *)
(** spatial signs *)
Lemma signs_moved : forall (env : prep_env R) co n p X m st m' st' Q c v, is_matrix n p X -> (2 <= n)%nat -> (1 <= p)%nat -> co <> CNone ->
  rotation p Q -> 0 < c ->
  sc_fit env (new_scaler co SNone 0) (A2 X) = (st, Ok tt) -> a_center st = Some m -> length m = p ->
  sc_fit env (new_scaler co SNone 0) (A2 (map (moved p c Q v) X)) = (st', Ok tt) -> a_center st' = Some m' -> m' = moved p c Q v m ->
  exists Z Z', gen_ss_pp env co (FStr SS) (A2 X) = Ok Z /\ gen_ss_pp env co (FStr SS) (A2 (map (moved p c Q v) X)) = Ok Z' /\
    is_matrix n p Z /\ is_matrix n p Z' /\
    forall i, (i < n)%nat -> 1 / 10000000000 <= edist (nth i X []) m -> 1 / 10000000000 <= c * edist (nth i X []) m ->
      nth i Z' [] = rotated p Q (nth i Z []).
Proof.
  intros env co n p X m st m' st' Q c v HX Hn Hp Hco HQ Hc E Em Hm E' Em' Hm'.
  assert (HS : documented_radial (A := R) SS) by (unfold documented_radial; tauto).
  assert (HX' : is_matrix n p (map (moved p c Q v) X)) by (apply moved_matrix; auto).
  assert (Hml : length m' = p) by (rewrite Hm'; apply moved_length).
  destruct (C19_rows_l env co SS n p X m st HX Hn Hp HS (or_intror eq_refl) Hco E Em Hm) as (Z & xi & HZ & _ & WZ & Lx & HC & HR & _).
  destruct (C19_rows_l env co SS n p _ m' st' HX' Hn Hp HS (or_intror eq_refl) Hco E' Em' Hml) as (Z' & xi' & HZ' & _ & WZ' & Lx' & HC' & HR' & _).
  exists Z, Z'. split; [exact HZ|]. split; [exact HZ'|]. split; [exact WZ|]. split; [exact WZ'|]. intros i Hi H1 H2.
  cbn in HR, HR'. rewrite Hm', (moved_edists n) in HR' by (auto; lra). destruct (HR i Hi) as (_ & R1 & _). destruct (HR' i Hi) as (_ & R2 & _).
  assert (Li : (i < length X)%nat) by (rewrite (wf_length n p X HX); auto).
  rewrite (nth_map_lt _ _ _ 0) in R2 by (rewrite map_length; auto). rewrite (nth_map_lt _ _ _ []) in R1, R2 by auto.
  specialize (R1 H1). specialize (R2 H2). set (d := edist (nth i X []) m) in *. set (x := nth i xi 0) in *. set (x' := nth i xi' 0) in *.
  assert (Ex : x' * c = x). { assert (d <> 0) by lra. apply Rmult_eq_reg_r with d; auto. lra. }
  assert (Lr : length (nth i X []) = p) by (apply (wf_nth_row n p); auto).
  assert (EZ : nth i Z [] = vscale x (vsub (nth i X []) m)).
  { apply (list_ext _ _ 0); [rewrite vscale_length, vsub_length, (wf_nth_row n p Z) by (auto; lia); lia|]. intros j Hj. rewrite (wf_nth_row n p Z) in Hj by auto.
    rewrite nth_vscale. rewrite nth_vsub by lia. apply (HC i j Hi Hj). }
  rewrite EZ, rotated_vscale.
  apply (list_ext _ _ 0); [rewrite vscale_length, rotated_length; apply (wf_nth_row n p); auto|]. intros j Hj. rewrite (wf_nth_row n p Z') in Hj by auto.
  rewrite nth_vscale. pose proof (HC' i j Hi Hj) as EC. unfold cell in EC. fold x' in EC. 
  eapply eq_trans; [exact EC|]. rewrite (nth_map_lt _ _ _ []) by auto. rewrite Hm'. rewrite <- Ex.
  pose proof (moved_vsub p c Q v (nth i X []) m (proj1 HQ) Lr Hm) as EV. apply (f_equal (fun l => nth j l 0)) in EV.
  rewrite nth_vsub, nth_vscale in EV by (rewrite ?moved_length, ?rotated_length; auto). rewrite EV. cbn. ring.
Qed.
