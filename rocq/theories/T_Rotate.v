(** Property theorems C166-C168 and C14_unique: rotations, translations and
    changes of unit of the data. *)

From Coq Require Import Reals QArith List Arith ZArith Bool Lia Lra Permutation Sorted.
Import ListNotations.
From Verif Require Import Num Err Vec VecR OrdR L_Mat S_Stats S_Radial S_Rotate L_Stats M_Utils M_Preproc M_Robcent M_Gsspp
  L_Scaling L_Scaling2 L_Lin L_Preproc L_Radial L_Rotate L_Rotate2.
Open Scope R_scope.

(* ------------------------------------------------------------------ *)
(** C14.  The minimiser that l1median looks for is unique unless all cases lie
    on one line, so "the" spatial median is well defined. *)

Theorem C14_unique : forall n p X a b, is_matrix n p X -> ~ on_a_line p X ->
  spatial_median_of p X a -> spatial_median_of p X b -> a = b.
Proof. exact spatial_median_unique. Qed.
Print Assumptions C14_unique.

Definition Xcross : list (list R) := [[1; 0]; [-1; 0]; [0; 1]; [0; -1]].
Lemma Xcross_matrix : is_matrix 4 2 Xcross.
Proof. split; [reflexivity|repeat constructor]. Qed.
Lemma Xcross_no_line : ~ on_a_line 2 Xcross.
Proof.
  intros (a & d & HL).
  destruct (HL [1; 0] ltac:(cbn; auto)) as [t1 H1]. destruct (HL [-1; 0] ltac:(cbn; auto)) as [t2 H2]. destruct (HL [0; 1] ltac:(cbn; auto)) as [t3 H3].
  pose proof (H1 0%nat ltac:(lia)) as A1. pose proof (H1 1%nat ltac:(lia)) as B1. pose proof (H2 0%nat ltac:(lia)) as A2. pose proof (H2 1%nat ltac:(lia)) as B2.
  pose proof (H3 0%nat ltac:(lia)) as A3. pose proof (H3 1%nat ltac:(lia)) as B3.
  cbn [nth] in A1, B1, A2, B2, A3, B3. set (a0 := nth 0 a 0) in *. set (a1 := nth 1 a 0) in *. set (d0 := nth 0 d 0) in *. set (d1 := nth 1 d 0) in *.
  assert (E1 : (t1 - t2) * d1 = 0) by lra. assert (E2 : (t1 - t2) * d0 = 2) by lra.
  assert (Hd : d1 = 0). { apply Rmult_integral in E1 as [E|E]; auto. rewrite E in E2. lra. }
  rewrite Hd in B1, B3. lra.
Qed.
Lemma edist2 : forall x y u w : R, edist [x; y] [u; w] = sqrt ((x - u) * (x - u) + (y - w) * (y - w)).
Proof. intros. rewrite edist_vnorm, norm_dot. f_equal. cbn. ring. Qed.
Lemma sqrt_ge_first : forall x y : R, Rabs x <= sqrt (x * x + y * y).
Proof. intros x y. rewrite <- sqrt_Rsqr_abs. apply sqrt_le_1_alt. unfold Rsqr. nra. Qed.
Lemma Xcross_median : spatial_median_of 2 Xcross [0; 0].
Proof.
  split; [reflexivity|]. intros b Hb. destruct b as [|u [|w [|? ?]]]; try discriminate. unfold total_distance, Xcross. cbn [map].
  rewrite !edist2.
  pose proof (sqrt_ge_first (1 - u) (0 - w)). pose proof (sqrt_ge_first (-1 - u) (0 - w)).
  pose proof (sqrt_ge_first (1 - w) (0 - u)). pose proof (sqrt_ge_first (-1 - w) (0 - u)).
  rewrite (Rplus_comm ((1 - w) * (1 - w))) in *. rewrite (Rplus_comm ((-1 - w) * (-1 - w))) in *.
  assert (HA : forall z, 2 <= Rabs (1 - z) + Rabs (-1 - z)) by (intros z; unfold Rabs; destruct (Rcase_abs (1 - z)), (Rcase_abs (-1 - z)); lra).
  pose proof (HA u). pose proof (HA w).
  replace ((1 - 0) * (1 - 0) + (0 - 0) * (0 - 0)) with 1 by ring. replace ((-1 - 0) * (-1 - 0) + (0 - 0) * (0 - 0)) with 1 by ring.
  replace ((0 - 0) * (0 - 0) + (1 - 0) * (1 - 0)) with 1 by ring. replace ((0 - 0) * (0 - 0) + (-1 - 0) * (-1 - 0)) with 1 by ring.
  rewrite sqrt_1. cbn. lra.
Qed.
Example C14_unique_case : is_matrix 4 2 Xcross /\ ~ on_a_line 2 Xcross /\ spatial_median_of 2 Xcross [0; 0].
Proof. split; [apply Xcross_matrix|]. split; [apply Xcross_no_line|apply Xcross_median]. Qed.

(* ------------------------------------------------------------------ *)
(** C166.  The rows are rotated (or reflected), multiplied by c > 0 and
    translated by [v]; the generalised spatial signs are the rotated signs,
    multiplied by c (the spatial signs themselves, [SS], for c = 1).  Centre:
    mean, the spatial median, or any centre that follows the motion. *)

Theorem C166_mean : forall (env : prep_env R) f n p X Q c v, is_matrix n p X -> (2 <= n)%nat -> (1 <= p)%nat ->
  documented_radial f -> (p <= n)%nat \/ f = SS -> rotation p Q -> 0 < c -> (f <> SS \/ c = 1) ->
  exists Z, gen_ss_pp env CMean (FStr f) (A2 X) = Ok Z /\ is_matrix n p Z /\
    gen_ss_pp env CMean (FStr f) (A2 (map (moved p c Q v) X)) = Ok (map (fun r => vscale c (rotated p Q r)) Z).
Proof.
  intros env f n p X Q c v HX Hn Hp Hf Hpn HQ Hc Hs.
  assert (HX' : is_matrix n p (map (moved p c Q v) X)) by (apply moved_matrix; auto).
  destruct (scaler_centre env CMean n p X _ HX Hn ltac:(discriminate) (mean0_R X)) as (st & E & Em).
  destruct (scaler_centre env CMean n p _ _ HX' Hn ltac:(discriminate) (mean0_R _)) as (st' & E' & Em').
  assert (HL : length (map vmean (cols X)) = p) by (rewrite map_length, cols_length; apply (wf_ncols n p); auto; lia).
  apply (gss_moved env CMean f n p X _ st _ st' Q c v HX Hn Hp ltac:(discriminate) Hf Hpn HQ Hc Hs E Em HL E' Em').
  apply (mean_moved n); auto; lia.
Qed.
Print Assumptions C166_mean.

(** the optimiser returns the spatial median of both data sets *)
Theorem C166_l1median : forall (env : prep_env R) f n p X Q c v, is_matrix n p X -> (2 <= n)%nat -> (2 <= p)%nat ->
  documented_radial f -> (p <= n)%nat \/ f = SS -> rotation p Q -> 0 < c -> (f <> SS \/ c = 1) ->
  ~ on_a_line p X -> (forall s, spatial_median_of p X (env_l1opt env X s)) ->
  (forall s, spatial_median_of p (map (moved p c Q v) X) (env_l1opt env (map (moved p c Q v) X) s)) ->
  exists Z, gen_ss_pp env CL1median (FStr f) (A2 X) = Ok Z /\ is_matrix n p Z /\
    gen_ss_pp env CL1median (FStr f) (A2 (map (moved p c Q v) X)) = Ok (map (fun r => vscale c (rotated p Q r)) Z).
Proof.
  intros env f n p X Q c v HX Hn Hp Hf Hpn HQ Hc Hs Hno H1 H2.
  assert (HX' : is_matrix n p (map (moved p c Q v) X)) by (apply moved_matrix; auto).
  assert (EL : forall Y, is_matrix n p Y -> location env CL1median 0 Y = Ok (env_l1opt env Y (median Y))).
  { intros Y HY. cbn [location]. unfold l1median. rewrite (wf_ncols n p) by (auto; lia). destruct (Nat.ltb_spec p 2); [lia|reflexivity]. }
  destruct (scaler_centre env CL1median n p X _ HX Hn ltac:(discriminate) (EL X HX)) as (st & E & Em).
  destruct (scaler_centre env CL1median n p _ _ HX' Hn ltac:(discriminate) (EL _ HX')) as (st' & E' & Em').
  apply (gss_moved env CL1median f n p X _ st _ st' Q c v HX Hn ltac:(lia) ltac:(discriminate) Hf Hpn HQ Hc Hs E Em (proj1 (H1 _)) E' Em').
  apply (l1opt_moved n p X); auto.
Qed.
Print Assumptions C166_l1median.

Theorem C166_any_centre : forall (env : prep_env R) co f n p X m st m' st' Q c v, is_matrix n p X -> (2 <= n)%nat -> (1 <= p)%nat -> co <> CNone ->
  documented_radial f -> (p <= n)%nat \/ f = SS -> rotation p Q -> 0 < c -> (f <> SS \/ c = 1) ->
  sc_fit env (new_scaler co SNone 0) (A2 X) = (st, Ok tt) -> a_center st = Some m -> length m = p ->
  sc_fit env (new_scaler co SNone 0) (A2 (map (moved p c Q v) X)) = (st', Ok tt) -> a_center st' = Some m' -> m' = moved p c Q v m ->
  exists Z, gen_ss_pp env co (FStr f) (A2 X) = Ok Z /\ is_matrix n p Z /\
    gen_ss_pp env co (FStr f) (A2 (map (moved p c Q v) X)) = Ok (map (fun r => vscale c (rotated p Q r)) Z).
Proof. exact gss_moved. Qed.
Print Assumptions C166_any_centre.

(** the spatial signs do not depend on the unit, as long as the case is not
    within 1e-10 of the centre in either unit *)
Theorem C166_signs : forall (env : prep_env R) co n p X m st m' st' Q c v, is_matrix n p X -> (2 <= n)%nat -> (1 <= p)%nat -> co <> CNone ->
  rotation p Q -> 0 < c ->
  sc_fit env (new_scaler co SNone 0) (A2 X) = (st, Ok tt) -> a_center st = Some m -> length m = p ->
  sc_fit env (new_scaler co SNone 0) (A2 (map (moved p c Q v) X)) = (st', Ok tt) -> a_center st' = Some m' -> m' = moved p c Q v m ->
  exists Z Z', gen_ss_pp env co (FStr SS) (A2 X) = Ok Z /\ gen_ss_pp env co (FStr SS) (A2 (map (moved p c Q v) X)) = Ok Z' /\
    is_matrix n p Z /\ is_matrix n p Z' /\
    forall i, (i < n)%nat -> 1 / 10000000000 <= edist (nth i X []) m -> 1 / 10000000000 <= c * edist (nth i X []) m ->
      nth i Z' [] = rotated p Q (nth i Z []).
Proof. exact signs_moved. Qed.
Print Assumptions C166_signs.

(** rotation by the angle with cosine 3/5, unit changed by 10 *)
Definition Q34 : list (list R) := [[3/5; 4/5]; [-4/5; 3/5]].
Lemma Q34_rotation : rotation 2 Q34.
Proof.
  split; [split; [reflexivity|repeat constructor]|]. intros a b Ha Hb.
  destruct a as [|[|a]]; [| |lia]; (destruct b as [|[|b]]; [| |lia]); split; vm_compute; lra.
Qed.
Definition env_med : prep_env R := {| env_l1opt := fun X _ => map vmean (cols X); env_es2 := 1 |}.
Example C166_case : is_matrix 4 2 Xcross /\ rotation 2 Q34 /\ ~ on_a_line 2 Xcross /\
  (forall s, spatial_median_of 2 Xcross (env_l1opt env_med Xcross s)) /\
  (forall s, spatial_median_of 2 (map (moved 2 10 Q34 [7; 8]) Xcross) (env_l1opt env_med (map (moved 2 10 Q34 [7; 8]) Xcross) s)).
Proof.
  split; [apply Xcross_matrix|]. split; [apply Q34_rotation|]. split; [apply Xcross_no_line|].
  assert (E : map vmean (cols Xcross) = [0; 0]) by (cbn; repeat f_equal; field).
  split; intros s; cbn [env_l1opt env_med].
  - rewrite E. apply Xcross_median.
  - rewrite (mean_moved 4 2) by (auto using Xcross_matrix, Q34_rotation). apply (spatial_median_moved 4); auto using Xcross_matrix, Q34_rotation; [lra|].
    rewrite E. apply Xcross_median.
Qed.

(** with the coordinate-wise median as the centre the signs depend on the
    orientation of the axes: r -> 5 r Q with the rotation above *)
Theorem C166_median_refuted : exists (X Z Z' : list (list Q)),
  let turn := map (fun r => [3 * nth 0 r 0 - 4 * nth 1 r 0; 4 * nth 0 r 0 + 3 * nth 1 r 0])%Q in
  let env : prep_env Q := {| env_l1opt := fun _ x => x; env_es2 := 1%Q |} in
  gen_ss_pp env CMedian (FStr Winsor) (A2 X) = Ok Z /\
  gen_ss_pp env CMedian (FStr Winsor) (A2 (turn X)) = Ok Z' /\ Z' <> turn Z.
Proof.
  exists [[0; 0]; [-12; -12]; [5; -12]]%Q, [[0; 12]; [-12; 0]; [5; 0]]%Q, [[-12; 16]; [0; -68]; [51; 0]]%Q.
  cbv zeta. split; [vm_compute; reflexivity|]. split; [vm_compute; reflexivity|]. vm_compute. discriminate.
Qed.
Print Assumptions C166_median_refuted.

(* ------------------------------------------------------------------ *)
(** C167.  Every concentration step of kstepLTS follows rotations,
    translations and changes of unit of the data ... *)

Theorem C167_steps : forall k n p c Q v X m, is_matrix n p X -> (1 <= n)%nat -> (1 <= p)%nat -> rotation p Q -> 0 < c -> length m = p ->
  Nat.iter k (lts_step (map (moved p c Q v) X)) (moved p c Q v m) = moved p c Q v (Nat.iter k (lts_step X) m).
Proof. intros. apply (lts_iter_moved k n); auto. Qed.
Print Assumptions C167_steps.

(** ... so the estimate in other units is the estimate, in those units, when the
    tolerance is converted with the data *)
Theorem C167_units : forall l1opt maxit tol n p c v X, is_matrix n p X -> (1 <= n)%nat -> (1 <= p)%nat -> 0 < c ->
  let X' := map (rescaled p c v) X in
  ((2 <= p)%nat -> ~ on_a_line p X /\ (forall s, spatial_median_of p X (l1opt X s)) /\ (forall s, spatial_median_of p X' (l1opt X' s))) ->
  kstepLTS l1opt maxit (c * tol) X' = rescaled p c v (kstepLTS l1opt maxit tol X).
Proof.
  intros l1opt maxit tol n p c v X HX Hn Hp Hc X' H2.
  assert (EX : X' = map (moved p c (ident p) v) X).
  { unfold X'. apply map_ext_in. intros r Hr. apply rescaled_moved. apply (wf_row n p X); auto. }
  assert (HX' : is_matrix n p X') by (rewrite EX; apply moved_matrix; auto).
  assert (EM : forall Y, is_matrix n p Y -> median Y = map vmedian (cols Y)) by (intros; apply median_R).
  assert (ES : l1median l1opt X' = rescaled p c v (l1median l1opt X) /\ length (l1median l1opt X) = p).
  { unfold l1median. rewrite (wf_ncols n p X HX), (wf_ncols n p X' HX') by lia. destruct (Nat.ltb_spec p 2).
    - assert (p = 1)%nat by lia. subst p. rewrite !EM by auto. unfold cols. rewrite (wf_ncols n 1 X HX), (wf_ncols n 1 X' HX') by lia. cbn [seq map].
      split; [|reflexivity]. unfold rescaled. cbn [seq map nth]. f_equal.
      rewrite <- vmedian_affine.
      + f_equal. unfold X', col. rewrite !map_map. apply map_ext_in. intros r Hr. cbn [rescaled seq map nth]. reflexivity.
      + intros E. apply (f_equal (@length R)) in E. rewrite col_length, (wf_length n 1 X HX) in E. cbn in E. lia.
    - destruct (H2 ltac:(lia)) as (Hno & S1 & S2). split; [|apply S1].
      rewrite rescaled_moved by apply S1. apply (l1opt_moved n p X); auto using ident_rotation. rewrite <- EX. apply S2. }
  destruct ES as [ES LS]. unfold kstepLTS. rewrite ES. unfold X'. rewrite (lts_loop_units maxit tol n p c v X) by auto. reflexivity.
Qed.
Print Assumptions C167_units.
Example C167_case : is_matrix 4 2 Xcross /\ ~ on_a_line 2 Xcross /\ (forall s, spatial_median_of 2 Xcross (env_l1opt env_med Xcross s)).
Proof. split; [apply Xcross_matrix|]. split; apply C166_case. Qed.

(** VersatileScaler uses the absolute tolerance 1e-10: with cases measured in
    another unit the loop can go on where it stopped before, and the fitted
    centre is another one (1e-10 in the old unit, more than 0.4 of it afterwards) *)
Definition Xtol : list (list Q) := map (fun x => [x]) [-60; -50; -1; 0; 4 # 10000000000; 1; 1 + (1 # 20000000000)]%Q.
Theorem C167_scaler_refuted : exists (X : list (list Q)) st st' m m',
  let env : prep_env Q := {| env_l1opt := fun _ x => x; env_es2 := 1%Q |} in
  sc_fit env (new_scaler CKstepLTS SNone 0%Q) (A2 X) = (st, Ok tt) /\ a_center st = Some [m] /\
  sc_fit env (new_scaler CKstepLTS SNone 0%Q) (A2 (map (map (Qmult 10)) X)) = (st', Ok tt) /\ a_center st' = Some [m'] /\
  (m == 1 # 10000000000 /\ 4 < m')%Q.
Proof.
  exists Xtol. eexists. eexists. eexists. eexists. cbv zeta.
  split; [vm_compute; reflexivity|]. split; [vm_compute; reflexivity|]. split; [vm_compute; reflexivity|]. split; [vm_compute; reflexivity|].
  vm_compute. split; reflexivity.
Qed.
Print Assumptions C167_scaler_refuted.

(* ------------------------------------------------------------------ *)
(** C168.  Wrapper: variables in other units (also reversed) give the wrapped
    variables in those units. *)

Theorem C168_wrapper : forall n p (X X' : list (list R)) (a b loc sca loc' sca' : list R),
  is_matrix n p X -> is_matrix n p X' -> (2 <= n)%nat -> (1 <= p)%nat ->
  (p <= length loc)%nat -> (p <= length sca)%nat -> (p <= length loc')%nat -> (p <= length sca')%nat ->
  (forall j, (j < p)%nat -> nth j a 0 <> 0 /\ ~ is_mad madcR (column j X) 0) ->
  (forall i j, (i < n)%nat -> (j < p)%nat -> cell X' i j = nth j a 0 * cell X i j + nth j b 0) ->
  exists Y Y', wrapper_transform (loc, sca) (A2 X) = Ok Y /\ wrapper_transform (loc', sca') (A2 X') = Ok Y' /\
    is_matrix n p Y /\ is_matrix n p Y' /\
    forall i j, (i < n)%nat -> (j < p)%nat -> cell Y' i j = nth j a 0 * cell Y i j + nth j b 0.
Proof.
  intros n p X X' a b loc sca loc' sca' HX HX' Hn Hp L1 L2 L3 L4 Ha HC. unfold wrapper_transform. cbn [fst snd].
  rewrite !(check_input_id n p) by auto.
  destruct (wrap_cells n p X loc sca HX ltac:(lia) Hp L1 L2) as (Y & E & W & HY).
  destruct (wrap_cells n p X' loc' sca' HX' ltac:(lia) Hp L3 L4) as (Y' & E' & W' & HY').
  exists Y, Y'. split; [exact E|]. split; [exact E'|]. split; [exact W|]. split; [exact W'|].
  intros i j Hi Hj. change (cell Y' i j) with (mget Y' i j). change (cell Y i j) with (mget Y i j). rewrite HY, HY' by auto.
  destruct (Ha j Hj) as [Ha0 Hm].
  assert (L : length (col j X) = n) by (rewrite col_length; apply (wf_length n p); auto).
  assert (Hne : col j X <> []) by (intros E0; rewrite E0 in L; cbn in L; lia).
  assert (EC : col j X' = map (fun x => nth j a 0 * x + nth j b 0) (col j X)).
  { apply (list_ext _ _ 0); [rewrite map_length, !col_length, (wf_length n p X HX), (wf_length n p X' HX'); auto|].
    intros k Hk. rewrite col_length, (wf_length n p X' HX') in Hk. rewrite (nth_map_lt _ _ _ 0) by lia.
    pose proof (nth_col X' k j) as E1. pose proof (nth_col X k j) as E2. rnum. cbn in E1, E2. rewrite E1, E2. apply HC; auto. }
  rewrite EC. apply wcol_affine; auto; [|lia]. intros E0. apply Hm. change (column j X) with (col j X). rewrite <- E0. apply is_mad_vmad; auto.
Qed.
Print Assumptions C168_wrapper.

(** the last variable is turned round: 60 becomes -115 = -2*60+5 and is wrapped *)
Example C168_case : wrapper_transform ([0], [1])%Q (A2 [[-1]; [0]; [1]; [2]; [60]])%Q = Ok [[-1]; [0]; [1]; [2]; [1]]%Q /\
  wrapper_transform ([0], [1])%Q (A2 [[7]; [5]; [3]; [1]; [-115]])%Q = Ok [[7]; [5]; [3]; [1]; [3]]%Q.
Proof. split; vm_compute; reflexivity. Qed.
