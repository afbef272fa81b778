(** Property theorems C09 and C14-C18: missing data, spatial median, LTS
    location, tau scale, wrapping. *)

From Coq Require Import Reals QArith List Arith ZArith Bool Lia Lra Permutation Sorted.
Import ListNotations.
From Verif Require Import Num Err Vec VecR OrdR L_Mat S_Stats L_Stats M_Utils M_Preproc M_Robcent
  L_Scaling L_Scaling2 L_Lin L_Preproc L_Missing.
Open Scope R_scope.

(* ------------------------------------------------------------------ *)
(** C09.  [XR] are the reals with infinities and NaN; [present] lists the
    finite entries of a column, [entries_ok] excludes infinities. *)

Theorem C09_missing : forall (env : prep_env XR) c s n p X,
  is_xmatrix n p X -> entries_ok X -> (2 <= n)%nat ->
  (c = CMean \/ c = CMedian) -> (s = SStd \/ s = SMad) ->
  (forall j, (j < p)%nat -> present (xcolumn j X) <> []) ->
  exists st m v, sc_fit env (new_scaler c s (Fin 0)) (A2 X) = (st, Ok tt) /\
    a_center st = Some m /\ a_scale st = Some v /\ length m = p /\ length v = p /\
    forall j, (j < p)%nat ->
      (c = CMean -> nth j m NaN = Fin (mean_of (present (xcolumn j X)))) /\
      (c = CMedian -> exists q, nth j m NaN = Fin q /\ is_median (present (xcolumn j X)) q) /\
      (s = SStd -> nth j v NaN = Fin (sqrt (variance_of (present (xcolumn j X))))) /\
      (s = SMad -> exists q, nth j v NaN = Fin q /\ is_mad madcR (present (xcolumn j X)) q).
Proof. exact C09_missing_l. Qed.
Print Assumptions C09_missing.

Definition XN : list (list XR) := [[Fin 1; NaN]; [NaN; Fin 5]; [Fin 4; Fin 9]].
Example C09_case : is_xmatrix 3 2 XN /\ entries_ok XN /\
  present (xcolumn 0 XN) = [1; 4] /\ present (xcolumn 1 XN) = [5; 9].
Proof. split; [split; [reflexivity|repeat constructor]|]. split; [repeat constructor|]. split; reflexivity. Qed.

(* ------------------------------------------------------------------ *)
(** C14 *)

Theorem C14_objective : forall X a, l1m_objective a X = total_distance X a.
Proof. exact C14_objective_l. Qed.
Print Assumptions C14_objective.

Theorem C14_subgradient : forall n p X a b, is_matrix n p X -> (1 <= n)%nat -> length a = p -> length b = p ->
  length (l1m_jacobian a X) = p /\
  total_distance X a + inner (l1m_jacobian a X) (vdiff b a) <= total_distance X b.
Proof. exact C14_subgradient_l. Qed.
Print Assumptions C14_subgradient.

Theorem C14_stationary : forall n p X a, is_matrix n p X -> (1 <= n)%nat -> length a = p ->
  Forall (fun x => x = 0) (l1m_jacobian a X) -> forall b, length b = p -> total_distance X a <= total_distance X b.
Proof. exact C14_stationary_l. Qed.
Print Assumptions C14_stationary.

Theorem C14_convex : forall n p X a b lam, is_matrix n p X -> (1 <= n)%nat -> length a = p -> length b = p -> 0 <= lam <= 1 ->
  total_distance X (vadd (vscale lam a) (vscale (1 - lam) b)) <= lam * total_distance X a + (1 - lam) * total_distance X b.
Proof. exact C14_convex_l. Qed.
Print Assumptions C14_convex.

(** the Jacobian does vanish at a non-trivial point: the centre of a cross
    (here it is also a data point) *)
Example C14_case : l1m_jacobian [0; 0]%Q [[0; 0]; [1; 0]; [- (1); 0]; [0; 3]; [0; - (1)]]%Q = [0; 0]%Q.
Proof. vm_compute. reflexivity. Qed.

(* ------------------------------------------------------------------ *)
(** C15 *)

(** every iteration averages at least half of the cases, the closest ones *)
Theorem C15_step : forall n p X m, is_matrix n p X -> (1 <= n)%nat ->
  exists S rest, Permutation X (S ++ rest) /\ ((n + 1) / 2 <= length S)%nat /\
    (forall r r', In r S -> In r' rest -> sqdist r m < sqdist r' m) /\
    forall j, (j < p)%nat -> nth j (lts_step X m) 0 = mean_of (column j S).
Proof. exact C15_step_l. Qed.
Print Assumptions C15_step.

Theorem C15_iterations : forall l1opt maxit tol (X : list (list R)),
  exists k, (k <= maxit)%nat /\ kstepLTS l1opt maxit tol X = Nat.iter k (lts_step X) (l1median l1opt X).
Proof. exact C15_iterations_l. Qed.
Print Assumptions C15_iterations.

(** if no ties enlarge the subset, the objective never increases *)
Theorem C15_monotone : forall n p X m cut v1 v2, is_matrix n p X -> (1 <= n)%nat -> length m = p ->
  is_order_stat (map (fun r => sqdist r m) X) ((n + 1) / 2 - 1) cut ->
  length (filter (fun r => if Rle_dec (sqdist r m) cut then true else false) X) = ((n + 1) / 2)%nat ->
  is_trimmed_objective ((n + 1) / 2) X m v1 ->
  is_trimmed_objective ((n + 1) / 2) X (lts_step X m) v2 ->
  v2 <= v1.
Proof. exact C15_monotone_l. Qed.
Print Assumptions C15_monotone.

Example C15_case : exists s,
  is_order_stat (map (fun r => sqdist r [0]) [[0]; [1]; [2]; [5]]) 1 1 /\
  length (filter (fun r => if Rle_dec (sqdist r [0]) 1 then true else false) [[0]; [1]; [2]; [5]]) = 2%nat /\
  is_trimmed_objective 2 [[0]; [1]; [2]; [5]] [0] s.
Proof.
  exists 1.
  assert (E : map (fun r => sqdist r [0]) [[0]; [1]; [2]; [5]] = [0; 1; 4; 25]).
  { unfold sqdist, sqlen, inner. cbn. repeat (f_equal; try lra). }
  split; [|split].
  - exists [0; 1; 4; 25]. rewrite E. split; [reflexivity|]. split; [repeat constructor; lra|]. split; [cbn; lia|reflexivity].
  - unfold sqdist, sqlen, inner. cbn. repeat (destruct Rle_dec; try lra). reflexivity.
  - exists [0; 1; 4; 25]. rewrite E. split; [reflexivity|]. split; [repeat constructor; lra|]. unfold sum_of; cbn; lra.
Qed.

(** with ties at the cut-off an iteration may increase the objective, even
    when started in an exact spatial median *)
Definition trimmed_obj_Q (X : list (list Q)) (m : list Q) : Q :=
  vsum (firstn ((length X + 1) / 2) (sort (map (fun r => vsum (map (fun xy => (fst xy - snd xy) * (fst xy - snd xy)) (combine r m))) X)))%Q.
Definition XT : list (list Q) :=
  (repeat [-9#10; 0] 8 ++ repeat [4#5; 3#5] 5 ++ repeat [4#5; -3#5] 5)%Q.

Theorem C15_monotone_refuted : exists (X : list (list Q)) (m : list Q) (l1opt : mat Q -> vec Q -> vec Q),
  l1median l1opt X = m /\ l1m_jacobian m X = [0; 0]%Q /\
  (trimmed_obj_Q X m < trimmed_obj_Q X (kstepLTS l1opt 1 (1#10) X))%Q.
Proof. exists XT, [0; 0]%Q, (fun _ _ => [0; 0]%Q). vm_compute. repeat split; reflexivity. Qed.
Print Assumptions C15_monotone_refuted.

(* ------------------------------------------------------------------ *)
(** C16 *)

(** the scale of column j is its raw (unscaled) median absolute deviation
    times one factor common to all columns *)
Theorem C16_common_factor : forall n p es2 c1 c2 co fi X, is_matrix n p X -> (1 <= n)%nat ->
  exists f, forall j d, (j < p)%nat -> is_mad 1 (column j X) d ->
    nth j (scaleTau2 es2 c1 c2 co fi X) 0 = d * f.
Proof. exact C16_common_factor_l. Qed.
Print Assumptions C16_common_factor.

(** with consistency correction co and finite-sample correction fi *)
Theorem C16_single_column : forall es2 c1 c2 co fi x, x <> [] -> 0 < c1 -> 0 <= c2 ->
  exists s, scaleTau2 es2 c1 c2 co fi (map (fun y => [y]) x) = [s] /\
    tau_scale (if co then (if fi then (INR (length x) - 2) * es2 else INR (length x) * es2) else INR (length x)) c1 c2 x s.
Proof. exact C16_single_column_l. Qed.
Print Assumptions C16_single_column.

Example C16_case : scaleTau2 1%Q (9#2)%Q 3%Q false false [[-1]; [-1]; [1]; [1]]%Q = [1]%Q.
Proof. vm_compute. reflexivity. Qed.

(** the same column gets another scale when other columns are present *)
Theorem C16_columnwise_refuted : exists (X X' : list (list Q)),
  col 0 X = col 0 X' /\
  nth 0 (scaleTau2 1%Q (9#2)%Q 3%Q true false X) 0%Q = 1%Q /\ nth 0 (scaleTau2 1%Q (9#2)%Q 3%Q true false X') 0%Q = 2%Q.
Proof.
  exists [[-1]; [-1]; [1]; [1]]%Q, (map (fun x => [x; x; x; x]) [-1; -1; 1; 1]%Q).
  vm_compute. repeat split; reflexivity.
Qed.
Print Assumptions C16_columnwise_refuted.

(* ------------------------------------------------------------------ *)
(** C17 *)

Theorem C17_shape : wrapping_shape wrap1.
Proof. exact C17_shape_l. Qed.
Print Assumptions C17_shape.

Theorem C17_wrap_column : forall locX scaleX dd, dd <> [] ->
  exists r loc sca, wrap_univ true locX scaleX dd = Ok r /\ length r = length dd /\
    is_median dd loc /\ is_mad madcR dd sca /\
    (sca <> 0 -> exists psi, wrapping_shape psi /\
       forall i, (i < length dd)%nat -> nth i r 0 = loc + sca * psi ((nth i dd 0 - loc) / sca)).
Proof. exact C17_wrap_column_l. Qed.
Print Assumptions C17_wrap_column.

(** 60 lies more than 4 MAD from the centre and is moved to the centre *)
Example C17_case : wrap_univ true None None [-1; 0; 1; 2; 60]%Q = Ok [-1; 0; 1; 2; 1]%Q.
Proof. vm_compute. reflexivity. Qed.

(* ------------------------------------------------------------------ *)
(** C18 *)

Theorem C18_fitted_state_ignored : forall (st st' : list R * list R) x,
  length (fst st) = length (fst st') -> length (snd st) = length (snd st') ->
  wrapper_transform st x = wrapper_transform st' x /\ wrapper_predict st x = wrapper_predict st' x.
Proof. exact C18_ignores_l. Qed.
Print Assumptions C18_fitted_state_ignored.

(** each new value is more than 4 fitted scales from the fitted location, so it
    should become the fitted location 101; it is returned as it is *)
Theorem C18_fitted_state_refuted : exists (X Xn : list (list Q)) loc sca,
  wrapper_fit (A2 X) = ([loc], [sca]) /\ loc = 101%Q /\
  Forall (Forall (fun x => 4 * sca <= Qabs.Qabs (x - loc))%Q) Xn /\
  wrapper_predict (wrapper_fit (A2 X)) (A2 Xn) = Ok Xn /\
  wrapper_transform (wrapper_fit (A2 X)) (A2 Xn) = Ok Xn.
Proof.
  exists [[100]; [101]; [102]]%Q, [[0]; [1]; [2]]%Q. eexists; eexists.
  split; [vm_compute; reflexivity|]. split; [reflexivity|]. split; [|split; vm_compute; reflexivity].
  repeat constructor; vm_compute; discriminate.
Qed.
Print Assumptions C18_fitted_state_refuted.

(* ------------------------------------------------------------------ *)
(** C05 for the tau scale of a single column.  A column whose MAD is zero is
    excluded: there the code divides by zero.  The default is c1 = 4.5. *)

Theorem C05_tau_affine : forall es2 c1 c2 co fi x a b, x <> [] -> 1 < c1 -> 0 <= c2 -> a <> 0 -> ~ is_mad 1 x 0 ->
  exists s, scaleTau2 es2 c1 c2 co fi (map (fun y => [y]) x) = [s] /\
            scaleTau2 es2 c1 c2 co fi (map (fun y => [a * y + b]) x) = [Rabs a * s].
Proof. exact C05_tau_l. Qed.
Print Assumptions C05_tau_affine.

Example C05_tau_case : ~ is_mad 1 [1; 3; 4] 0.
Proof.
  intros H. apply is_mad_unique in H. 
  assert (E1 : is_median [1; 3; 4] 3).
  { exists [1; 3; 4]. split; [reflexivity|]. split; [repeat constructor; lra|]. split; [discriminate|cbn; lra]. }
  apply is_median_unique in E1. rewrite <- E1 in H. 
  assert (E2 : is_median (map (fun x => Rabs (x - 3)) [1; 3; 4]) 1).
  { exists [0; 1; 2]. cbn. rewrite (Rabs_left (1 - 3)), (Rabs_right (3 - 3)), (Rabs_right (4 - 3)) by lra.
    replace (- (1 - 3)) with 2 by ring. replace (3 - 3) with 0 by ring. replace (4 - 3) with 1 by ring.
    split; [|split; [repeat constructor; lra|split; [discriminate|cbn; lra]]].
    apply Permutation_trans with [0; 2; 1]; [apply perm_swap|apply perm_skip, perm_swap]. }
  apply is_median_unique in E2. rewrite <- E2 in H. lra.
Qed.
