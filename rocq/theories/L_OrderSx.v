(** Order of the cases in sudire: examples and counterexamples. *)

From Coq Require Import String Reals List Arith ZArith Bool Lia Lra Permutation.
Import List. Import ListNotations.
From Verif Require Import Num Err Vec VecR OrdR L_Mat L_Lin L_Matmul S_Stats L_Stats S_Order L_Order M_Utils M_Preproc M_Robcent
  L_Scaling L_Scaling2 L_Preproc L_Snipls L_OrderSc M_Dicomo L_OrderDi M_Ipopt M_SdrUtils M_Sudire S_Sudire L_SdrMat L_SdrKer L_SdrEig L_SdrPow L_SdrMeth L_Sdr L_SdrFit L_SdrFit2 L_SdrFit3
  L_SdrMore L_SdrEx S_OrderSd L_OrderSd L_OrderSf.
Open Scope num_scope. Open Scope R_scope.

(** ** more categories than slices *)
Definition X2o : list (list R) := [[1; 0]; [0; 1]].
Definition y2o : list R := [1; 2].
Lemma swap_order : case_order 2 [1; 0]%nat. Proof. apply perm_swap. Qed.
Lemma distinct2 : forall a b : R, a <> b -> distinct [a; b] = [a; b].
Proof. intros a b H. cbn. destruct (Req_EM_T b a); [congruence|reflexivity]. Qed.
Lemma one_slice : forall eigh a b r s B, eigh_ok eigh -> a <> b -> length r = 2%nat -> length s = 2%nat -> SIR eigh [r; s] [a; b] 1 1 false false false = Ok B ->
  leading_eigenvectors 2 (matrix_of 2 (fun i j => / 2 * nth i r 0 * nth j r 0)) 1 B.
Proof.
  intros eigh a b r s B He Hab Lr Ls E. assert (W : wf 2 2 [r; s]) by (split; [reflexivity|repeat constructor; auto]).
  destruct (SIR_ok eigh 2 2 [r; s] He ltac:(lia) ltac:(lia) W [a; b] 1 false eq_refl 1%nat false false B E) as [labels [HL [_ HB]]]. cbn in HL. subst labels.
  rewrite (distinct2 a b Hab) in HB. cbn [firstn] in HB. change (Nat.min 1 2) with 1%nat in HB.
  destruct HB as (S & Z & V & WS & _ & _ & [WZ HZ] & HV & [WB HB]).
  assert (EV : V = B). { apply (mat_ext 2 1); [apply HV|exact WB|]. intros i j Hi Hj. symmetry. apply (HB i j); auto. } subst V.
  assert (EZ : Z = [r; s]).
  { apply (mat_ext 2 2); [exact WZ|exact W|]. intros i j Hi Hj. specialize (HZ i j Hi Hj). cbv zeta in HZ. change cell with (mget (A := R)) in HZ. rewrite HZ. ring. } subst Z.
  replace (matrix_of 2 (between [a; b] [a] [r; s])) with (matrix_of 2 (fun i j => / 2 * nth i r 0 * nth j r 0)) in HV; [exact HV|].
  unfold matrix_of. apply map_ext. intros i. apply map_ext. intros j. unfold between, sum_of. cbn [map fold_right]. rewrite Rplus_0_r.
  assert (E1 : slice [a; b] [r; s] a = [r]). { unfold slice. cbn. destruct (Req_EM_T a a); [|congruence]. destruct (Req_EM_T b a); [congruence|]. reflexivity. }
  assert (E2 : fraction [a; b] a = / 2). { unfold fraction. cbn. destruct (Req_EM_T a a); [|congruence]. destruct (Req_EM_T b a); [congruence|]. cbn. lra. }
  rewrite E1, E2. unfold mean_of, column, sum_of. cbn. field.
Qed.
Lemma few_slices : forall eigh B B', eigh_ok eigh -> SIR eigh X2o y2o 1 1 false false false = Ok B -> SIR eigh (reorder [1; 0]%nat X2o) (reorder [1; 0]%nat y2o) 1 1 false false false = Ok B' -> B' <> B.
Proof.
  intros eigh B B' He E E'. cbn in E'. apply (one_slice eigh 1 2 [1; 0] [0; 1]) in E; auto; try lra. apply (one_slice eigh 2 1 [0; 1] [1; 0]) in E'; auto; try lra.
  destruct E as (_ & N1 & Q1 & M1). destruct E' as (_ & _ & Q2 & M2). intros ->.
  specialize (N1 0%nat 0%nat ltac:(lia) ltac:(lia)). pose proof (Q1 1%nat 0%nat ltac:(lia) ltac:(lia)) as A1. pose proof (Q2 0%nat 0%nat ltac:(lia) ltac:(lia)) as A2.
  pose proof (M1 0%nat [1; 0] ltac:(lia) eq_refl ltac:(lia)) as B1. pose proof (M2 0%nat [0; 1] ltac:(lia) eq_refl ltac:(lia)) as B2.
  rewrite !quad_matrix_of in *. unfold sumn, sum_to, sum_of, sqlen, inner, column, cell, matrix_of, delta in *. cbn in *.
  destruct B as [|r1 [|r2 B]]; cbn in *; lra.
Qed.
Lemma few_slices_ok : exists B B', SIR eigh2 X2o y2o 1 1 false false false = Ok B /\ SIR eigh2 (reorder [1; 0]%nat X2o) (reorder [1; 0]%nat y2o) 1 1 false false false = Ok B'.
Proof.
  destruct (ex_SIR 2 X2o y2o 1 1 false false) as [B E]; try lia; [split; [reflexivity|repeat constructor]|reflexivity|unfold y2o; rewrite distinct2 by lra; cbn; lia|].
  destruct (ex_SIR 2 (reorder [1; 0]%nat X2o) (reorder [1; 0]%nat y2o) 1 1 false false) as [B' E']; try lia; [split; [reflexivity|repeat constructor]|reflexivity|cbn [reorder flat_map nth_error y2o app]; rewrite distinct2 by lra; cbn; lia|].
  eauto.
Qed.

(** ** the default start of the optimised methods: twelve labels of two cases;
    the first six spread along the first axis, the others along the second *)
Definition X24 : list (list R) := [[2; 0]; [-1; 0]; [1; 0]; [-2; 0]; [2; 0]; [-1; 0]; [1; 0]; [-2; 0]; [3 / 2; 0]; [- (1 / 2); 0]; [- (1 / 2); 0]; [- (1 / 2); 0]; [0; - (1 / 2)]; [0; - (1 / 2)]; [0; 3 / 2]; [0; - (1 / 2)]; [0; 1]; [0; -2]; [0; 2]; [0; -1]; [0; 1]; [0; -2]; [0; 2]; [0; -1]].
Definition y24 : list R := [1; 1; 2; 2; 3; 3; 4; 4; 5; 5; 6; 6; 7; 7; 8; 8; 9; 9; 10; 10; 11; 11; 12; 12].
Definition o24 : list nat := [23; 22; 21; 20; 19; 18; 17; 16; 15; 14; 13; 12; 11; 10; 9; 8; 7; 6; 5; 4; 3; 2; 1; 0]%nat.
Lemma o24_order : case_order 24 o24.
Proof. unfold case_order. change o24 with (rev (seq 0 24)). apply Permutation_rev. Qed.
Lemma X24_wf : wf 24 2 X24. Proof. split; [reflexivity|repeat constructor]. Qed.
Lemma X24r_wf : wf 24 2 (reorder o24 X24). Proof. apply reorder_wf; [apply o24_order|apply X24_wf]. Qed.
Lemma X24_mean : forall j, (j < 2)%nat -> mean_of (column j X24) = 0.
Proof. intros j Hj. destruct (two_cases j Hj) as [->| ->]; unfold mean_of, sum_of, column, X24; cbn; field. Qed.
Lemma X24_cov : npcov X24 = identity 2.
Proof.
  apply (rep_eq 2 2 _ _ _ _ (rep_cov 24 2 X24 ltac:(lia) X24_wf) (rep_identity 2)). intros i j Hi Hj. unfold cov_of. rewrite !X24_mean by auto.
  destruct (two_cases i Hi) as [->| ->], (two_cases j Hj) as [->| ->]; unfold sum_of, column, X24, delta; cbn; field.
Qed.
Lemma eigh2_id : forall a d e, e = 0 -> eigh2 [[a; e]; [0; d]] = Ok ([a; d], [[1; 0]; [0; 1]]).
Proof. intros a d e ->. unfold eigh2. destruct (Req_EM_T 0 0); [reflexivity|congruence]. Qed.
Lemma signsqrt_id : forall X, ncols X = 2%nat -> npcov X = identity 2 -> signsqrt eigh2 X = Ok (identity 2).
Proof.
  intros X EN EC. unfold signsqrt. rewrite EN, EC. cbn [Nat.eqb]. unfold matpower.
  assert (EM : map2 (map2 (fun a b => (a +! b) /! nnat 2)) (identity 2) (transpose (identity (A := R) 2)) = [[1; 0]; [0; 1]]).
  { rewrite nnat_R. cbn. repeat f_equal; field. }
  rewrite EM, eigh2_id by reflexivity. cbn [bind]. f_equal.

  assert (E1 : npowr 1 (nlit (A := R) (-1) 2) = 1). { rnum. unfold Rpowr. destruct (Rlt_dec 0 1); [|lra]. unfold Rpower. rewrite ln_1, Rmult_0_r, exp_0. reflexivity. }
  cbn [map]. rewrite E1. cbn. repeat f_equal; ring.
Qed.
Lemma leading_diag : forall a d, a <> d -> leading eigh2 [[a; 0]; [0; d]] 1 = Ok (if Rlt_dec d a then [[1]; [0]] else [[0]; [1]]).
Proof.
  intros a d H. unfold leading. rewrite eigh2_id by reflexivity. cbn [bind]. f_equal. unfold argsort. cbn. destruct (Rlt_dec d a).
  - replace (Rleb a d) with false by (symmetry; apply Rleb_false; lra). reflexivity.
  - replace (Rleb a d) with true by (symmetry; apply Rleb_true; lra). reflexivity.
Qed.
Lemma sliced_id : forall n X y k, wf n 2 X -> (0 < n)%nat -> npcov X = identity 2 -> length y = n -> (k <= length (distinct y))%nat ->
  sliced eigh2 X y k false false true = Ok (identity 2, X, y, firstn k (distinct y)).
Proof.
  intros n X y k W Hn EC Ly Hk. unfold sliced. rewrite (signsqrt_id X) by (auto; apply (wf_ncols n 2); auto). cbn [bind]. cbv zeta.
  assert (EI : npmatmul X (identity (A := R) 2) = Ok X).
  { rewrite (npmatmul_total n 2 2) by (auto; apply rep_identity). f_equal. apply (rep_eq n 2 _ _ _ _ (rep_matmul n 2 2 _ _ _ _ ltac:(lia) (rep_self _ _ _ W) (rep_identity 2)) (rep_self _ _ _ W)).
    intros i j Hi Hj. cbn beta. rewrite (sumn_ext 2 _ (fun b => if (b =? j)%nat then mget (A := R) X i b else 0)); [apply sumn_delta; auto|]. intros b Hb. unfold delta. destruct (b =? j)%nat; ring. }
  rewrite EI. cbn [bind response_labels].
  rewrite slice_labels_distinct; [|intros ->; cbn in Ly; lia|rewrite (wf_length _ _ _ W); lia]. cbn [bind]. unfold used_labels.
  destruct (Nat.ltb_spec (length (distinct y)) k); [lia|]. cbn [bind]. rewrite (wf_length _ _ _ W), Ly, Nat.eqb_refl. reflexivity.
Qed.
Lemma back_diag : forall K a d, rep 2 2 K (cell [[a; 0]; [0; d]]) -> a <> d -> bind (leading eigh2 K 1) (back true (identity 2)) = Ok (if Rlt_dec d a then [[1]; [0]] else [[0]; [1]]).
Proof.
  intros K a d HK Had.
  assert (EK : K = [[a; 0]; [0; d]]) by (apply (rep_eq 2 2 _ _ _ _ HK (rep_self 2 2 [[a; 0]; [0; d]] ltac:(split; [reflexivity|repeat constructor]))); reflexivity).
  rewrite EK, leading_diag by auto. cbn [bind back]. rewrite (npmatmul_total 2 2 1); [|lia|apply rep_identity|destruct (Rlt_dec d a); split; try reflexivity; repeat constructor]. f_equal.
  destruct (Rlt_dec d a); cbn; repeat f_equal; ring.
Qed.
Lemma rep_ext : forall p q M f g, rep p q M f -> (forall i j, (i < p)%nat -> (j < q)%nat -> f i j = g i j) -> rep p q M g.
Proof. intros p q M f g [W H] E. split; [exact W|]. intros i j Hi Hj. rewrite H by auto. auto. Qed.
Section Diag.
  Variables (n : nat) (X : list (list R)) (y : list R) (a d : R).
  Hypotheses (W : wf n 2 X) (Hn : (0 < n)%nat) (EC : npcov X = identity 2) (Ly : length y = n) (H6 : (6 <= length (distinct y))%nat) (Had : a <> d).
  Lemma save_diag : (forall i j, (i < 2)%nat -> (j < 2)%nat -> average_variance y (firstn 3 (distinct y)) X 2 i j = cell [[a; 0]; [0; d]] i j) ->
    SAVE eigh2 X y 3 1 false false true = Ok (if Rlt_dec d a then [[1]; [0]] else [[0]; [1]]).
  Proof.
    intros HA. unfold SAVE. rewrite (sliced_id n) by (auto; lia). cbn [bind]. rewrite (wf_length _ _ _ W), (wf_ncols n 2 X W Hn). apply back_diag; [|exact Had].
    eapply rep_ext; [apply (rep_save y _ X n 2 W Ly (used_in 3 y)); lia|exact HA].
  Qed.
  Lemma sir_diag : (forall i j, (i < 2)%nat -> (j < 2)%nat -> between y (firstn 6 (distinct y)) X i j = cell [[a; 0]; [0; d]] i j) ->
    SIR eigh2 X y 6 1 false false true = Ok (if Rlt_dec d a then [[1]; [0]] else [[0]; [1]]).
  Proof.
    intros HA. unfold SIR. rewrite (sliced_id n) by (auto; lia). cbn [bind Nat.eqb]. rewrite (wf_length _ _ _ W). apply back_diag; [|exact Had].
    eapply rep_ext; [apply (rep_sir y _ X n 2 W Ly (used_in 6 y)); rewrite firstn_length; lia|exact HA].
  Qed.
  Lemma dr_diag : (forall i j, (i < 2)%nat -> (j < 2)%nat -> directional y (firstn 6 (distinct y)) X 2 i j = cell [[a; 0]; [0; d]] i j) ->
    DR eigh2 X y 6 1 false false true = Ok (if Rlt_dec d a then [[1]; [0]] else [[0]; [1]]).
  Proof.
    intros HA. unfold DR. rewrite (sliced_id n) by (auto; lia). cbn [bind Nat.eqb]. rewrite (wf_length _ _ _ W), (wf_ncols n 2 X W Hn). apply back_diag; [|exact Had].
    eapply rep_ext; [apply (rep_dr y _ X n 2 W Ly (used_in 6 y)); lia|exact HA].
  Qed.
End Diag.
Lemma filter_yes : forall (U : Type) (f : U -> bool) x l, f x = true -> filter f (x :: l) = x :: filter f l.
Proof. intros U f x l E. cbn. rewrite E. reflexivity. Qed.
Lemma filter_no : forall (U : Type) (f : U -> bool) x l, f x = false -> filter f (x :: l) = filter f l.
Proof. intros U f x l E. cbn. rewrite E. reflexivity. Qed.
Ltac pick := repeat (first [rewrite filter_no by (cbn [fst]; unfold neqR; destruct (Req_EM_T _ _); first [reflexivity|exfalso; lra]) |
  rewrite filter_yes by (cbn [fst]; unfold neqR; destruct (Req_EM_T _ _); first [reflexivity|exfalso; lra])]).
Definition all24 : list R := [1; 2; 3; 4; 5; 6; 7; 8; 9; 10; 11; 12].
Lemma y24_distinct : distinct y24 = all24.
Proof. unfold y24. repeat (rewrite distinct_cons_filter; pick; cbn [filter]). reflexivity. Qed.
Lemma y24r_distinct : distinct (reorder o24 y24) = rev all24.
Proof. cbn [reorder o24 y24 flat_map nth_error app]. repeat (rewrite distinct_cons_filter; pick; cbn [filter]). reflexivity. Qed.
Lemma fraction24 : forall a, In a all24 -> fraction y24 a = / 12.
Proof.
  intros a Ha. unfold fraction. assert (E : length (filter (fun v => if Req_EM_T v a then true else false) y24) = 2%nat).
  { unfold y24. cbn in Ha. repeat (destruct Ha as [<-|Ha]; [pick; reflexivity|]). contradiction. }
  rewrite E. cbn. field.
Qed.
(** two cases m + s and m - s along one axis *)
Definition on_axis (ax : nat) (v : R) : list R := if (ax =? 0)%nat then [v; 0] else [0; v].
Definition pair24 (y : list R) (X : list (list R)) (ax : nat) (a m s : R) : Prop := slice y X a = [on_axis ax (m + s); on_axis ax (m - s)] /\ fraction y a = / 12.
Definition at_axis (ax i j : nat) (v : R) : R := if (i =? ax)%nat then if (j =? ax)%nat then v else 0 else 0.
Lemma pair_within : forall y X ax a m s i j, (ax < 2)%nat -> (i < 2)%nat -> (j < 2)%nat -> pair24 y X ax a m s -> within y X a i j = at_axis ax i j (2 * (s * s)).
Proof.
  intros y X ax a m s i j Hx Hi Hj [E _]. unfold within. rewrite E. cbn [length Nat.ltb Nat.leb]. unfold cov_of, mean_of, sum_of, column, at_axis, on_axis.
  destruct (two_cases ax Hx) as [->| ->], (two_cases i Hi) as [->| ->], (two_cases j Hj) as [->| ->]; cbn; field.
Qed.
Lemma pair_mean : forall y X ax a m s i, (ax < 2)%nat -> (i < 2)%nat -> pair24 y X ax a m s -> mean_of (column i (slice y X a)) = if (i =? ax)%nat then m else 0.
Proof.
  intros y X ax a m s i Hx Hi [E _]. rewrite E. unfold mean_of, sum_of, column, on_axis.
  destruct (two_cases ax Hx) as [->| ->], (two_cases i Hi) as [->| ->]; cbn; field.
Qed.
Definition pairs24 (y : list R) (X : list (list R)) (ax : nat) (us : list R) (ms ss : list R) : Prop :=
  Forall2 (fun a ms => pair24 y X ax a (fst ms) (snd ms)) us (combine ms ss).
Definition sum24 (f : R -> R -> R) (l : list (R * R)) : R := sum_of (map (fun ms => / 12 * f (fst ms) (snd ms)) l).
Section Kernels.
  Variables (y : list R) (X : list (list R)) (ax : nat).
  Hypothesis Hx : (ax < 2)%nat.
  Lemma av_pairs : forall us l i j, (i < 2)%nat -> (j < 2)%nat -> Forall2 (fun a ms => pair24 y X ax a (fst ms) (snd ms)) us l ->
    average_variance y us X 2 i j = at_axis ax i j (sum24 (fun m s => (2 * (s * s) - 1) * (2 * (s * s) - 1)) l) + at_axis (1 - ax) i j (sum24 (fun _ _ => 1) l).
  Proof.
    intros us l i j Hi Hj H. unfold average_variance, sum24, sum_of. induction H as [|a [m s] us l H _ IH]; cbn [map fold_right fst snd]; [unfold at_axis; destruct (i =? ax)%nat, (j =? ax)%nat, (i =? 1 - ax)%nat, (j =? 1 - ax)%nat; ring|].
    rewrite IH. cbn [fst snd] in H. unfold sum_to, sum_of. cbn [map seq fold_right]. rewrite !(pair_within y X ax a m s) by (auto; lia). destruct H as [_ ->]. unfold at_axis, delta.
    destruct (two_cases ax Hx) as [->| ->], (two_cases i Hi) as [->| ->], (two_cases j Hj) as [->| ->]; cbn [Nat.eqb Nat.sub]; ring.
  Qed.
  Lemma btw_pairs : forall us l i j, (i < 2)%nat -> (j < 2)%nat -> Forall2 (fun a ms => pair24 y X ax a (fst ms) (snd ms)) us l ->
    between y us X i j = at_axis ax i j (sum24 (fun m s => m * m) l).
  Proof.
    intros us l i j Hi Hj H. unfold between, sum24, sum_of. induction H as [|a [m s] us l H _ IH]; cbn [map fold_right fst snd]; [unfold at_axis; destruct (i =? ax)%nat, (j =? ax)%nat; ring|].
    rewrite IH. cbn [fst snd] in H. rewrite !(pair_mean y X ax a m s) by auto. destruct H as [_ ->]. unfold at_axis. destruct (i =? ax)%nat, (j =? ax)%nat; ring.
  Qed.
  Lemma mom_pairs : forall us l i j, (i < 2)%nat -> (j < 2)%nat -> Forall2 (fun a ms => pair24 y X ax a (fst ms) (snd ms)) us l ->
    sum_of (map (fun a => fraction y a * sum_to 2 (fun b => second_moment y X a i b * second_moment y X a b j)) us) =
    at_axis ax i j (sum24 (fun m s => (2 * (s * s) + m * m) * (2 * (s * s) + m * m)) l).
  Proof.
    intros us l i j Hi Hj H. unfold sum24, sum_of. induction H as [|a [m s] us l H _ IH]; cbn [map fold_right fst snd]; [unfold at_axis; destruct (i =? ax)%nat, (j =? ax)%nat; ring|].
    rewrite IH. cbn [fst snd] in H. unfold sum_to, sum_of, second_moment. cbn [map seq fold_right]. rewrite !(pair_within y X ax a m s), !(pair_mean y X ax a m s) by (auto; lia). destruct H as [_ ->]. unfold at_axis.
    destruct (two_cases ax Hx) as [->| ->], (two_cases i Hi) as [->| ->], (two_cases j Hj) as [->| ->]; cbn [Nat.eqb Nat.sub]; ring.
  Qed.
  Lemma dir_pairs : forall us l i j, (i < 2)%nat -> (j < 2)%nat -> Forall2 (fun a ms => pair24 y X ax a (fst ms) (snd ms)) us l ->
    directional y us X 2 i j = at_axis ax i j (2 * sum24 (fun m s => (2 * (s * s) + m * m) * (2 * (s * s) + m * m)) l + 4 * (sum24 (fun m s => m * m) l * sum24 (fun m s => m * m) l)) - 2 * delta i j.
  Proof.
    intros us l i j Hi Hj H. unfold directional. rewrite (mom_pairs us l) by auto. unfold sum_to, sum_of. cbn [map seq fold_right]. rewrite !(btw_pairs us l) by (auto; lia). unfold at_axis.
    destruct (two_cases ax Hx) as [->| ->], (two_cases i Hi) as [->| ->], (two_cases j Hj) as [->| ->]; cbn [Nat.eqb Nat.sub]; ring.
  Qed.
End Kernels.
Definition pl1 : list (R * R) := [(1 / 2, 3 / 2); (- (1 / 2), 3 / 2); (1 / 2, 3 / 2); (- (1 / 2), 3 / 2); (1 / 2, 1); (- (1 / 2), 0)].
Definition pl2 : list (R * R) := [(- (1 / 2), 0); (1 / 2, 1); (- (1 / 2), 3 / 2); (1 / 2, 3 / 2); (- (1 / 2), 3 / 2); (1 / 2, 3 / 2)].
Ltac pair_tac := split; [unfold slice, y24, X24, on_axis; cbn [combine Nat.eqb fst snd]; pick; cbn [map filter snd]; repeat (f_equal; try lra)|apply fraction24; cbn; auto 20].
Lemma pairs_first : Forall2 (fun a ms => pair24 y24 X24 0 a (fst ms) (snd ms)) [1; 2; 3; 4; 5; 6] pl1.
Proof. repeat (apply Forall2_cons; [pair_tac|]). apply Forall2_nil. Qed.
Lemma pairs_last : Forall2 (fun a ms => pair24 y24 X24 1 a (fst ms) (snd ms)) [7; 8; 9; 10; 11; 12] pl2.
Proof. repeat (apply Forall2_cons; [pair_tac|]). apply Forall2_nil. Qed.
(** all three candidates for the start lie on the axis of the labels seen first *)
Definition axis_basis (ax : nat) : list (list R) := if (ax =? 0)%nat then [[1]; [0]] else [[0]; [1]].
Definition candidates (X : list (list R)) (y : list R) (B : list (list R)) : Prop :=
  SAVE eigh2 X y 3 1 false false true = Ok B /\ SIR eigh2 X y 6 1 false false true = Ok B /\ DR eigh2 X y 6 1 false false true = Ok B.
Lemma first_candidates : candidates X24 y24 [[1]; [0]].
Proof.
  pose proof pairs_first as P. assert (P3 : Forall2 (fun a ms => pair24 y24 X24 0 a (fst ms) (snd ms)) [1; 2; 3] (firstn 3 pl1)).
  { unfold pl1 in *. cbn [firstn]. inversion P as [|? ? ? ? P1 Q1]; subst. inversion Q1 as [|? ? ? ? P2 Q2]; subst. inversion Q2; subst. repeat (apply Forall2_cons; auto). }
  assert (E6 : (6 <= length (distinct y24))%nat) by (rewrite y24_distinct; cbn; lia).
  split; [|split].
  - rewrite (save_diag 24 X24 y24 (/ 12 * (3 * (49 / 4))) (/ 12 * 3) X24_wf ltac:(lia) X24_cov eq_refl E6 ltac:(lra)); [destruct (Rlt_dec _ _); [reflexivity|lra]|].
    intros i j Hi Hj. rewrite y24_distinct. cbn [firstn all24]. rewrite (av_pairs y24 X24 0 ltac:(lia) _ _ i j Hi Hj P3). unfold sum24, sum_of, pl1, at_axis, cell. cbn [firstn map fold_right fst snd].
    destruct (two_cases i Hi) as [->| ->], (two_cases j Hj) as [->| ->]; cbn; field.
  - rewrite (sir_diag 24 X24 y24 (/ 12 * (6 / 4)) 0 X24_wf ltac:(lia) X24_cov eq_refl E6 ltac:(lra)); [destruct (Rlt_dec _ _); [reflexivity|lra]|].
    intros i j Hi Hj. rewrite y24_distinct. cbn [firstn all24]. rewrite (btw_pairs y24 X24 0 ltac:(lia) _ _ i j Hi Hj P). unfold sum24, sum_of, pl1, at_axis, cell. cbn [firstn map fold_right fst snd].
    destruct (two_cases i Hi) as [->| ->], (two_cases j Hj) as [->| ->]; cbn; field.
  - set (v := 2 * sum24 (fun m s => (2 * (s * s) + m * m) * (2 * (s * s) + m * m)) pl1 + 4 * (sum24 (fun m s => m * m) pl1 * sum24 (fun m s => m * m) pl1)).
    assert (Hv : 0 < v) by (unfold v, sum24, sum_of, pl1; cbn [map fold_right fst snd]; lra).
    rewrite (dr_diag 24 X24 y24 (v - 2) (- 2) X24_wf ltac:(lia) X24_cov eq_refl E6 ltac:(lra)); [destruct (Rlt_dec _ _); [reflexivity|lra]|].
    intros i j Hi Hj. rewrite y24_distinct. cbn [firstn all24]. rewrite (dir_pairs y24 X24 0 ltac:(lia) _ _ i j Hi Hj P). fold v. unfold at_axis, cell, delta.
    destruct (two_cases i Hi) as [->| ->], (two_cases j Hj) as [->| ->]; cbn; ring.
Qed.
Lemma last_candidates : candidates (reorder o24 X24) (reorder o24 y24) [[0]; [1]].
Proof.
  pose proof pairs_last as P. assert (P3 : Forall2 (fun a ms => pair24 y24 X24 1 a (fst ms) (snd ms)) [10; 11; 12] (skipn 3 pl2)).
  { unfold pl2 in *. cbn [skipn]. inversion P as [|? ? ? ? P1 Q1]; subst. inversion Q1 as [|? ? ? ? P2 Q2]; subst. inversion Q2; subst. assumption. }
  assert (E6 : (6 <= length (distinct (reorder o24 y24)))%nat) by (rewrite y24r_distinct; cbn; lia).
  assert (EC : npcov (reorder o24 X24) = identity 2) by (rewrite (npcov_order 24 2 o24 X24 o24_order X24_wf ltac:(lia)); apply X24_cov).
  assert (EL : length (reorder o24 y24) = 24%nat) by (apply (reorder_length 24); [apply o24_order|reflexivity]).
  split; [|split].
  - rewrite (save_diag 24 _ _ (/ 12 * 3) (/ 12 * (3 * (49 / 4))) X24r_wf ltac:(lia) EC EL E6 ltac:(lra)); [destruct (Rlt_dec _ _); [lra|reflexivity]|].
    intros i j Hi Hj. rewrite y24r_distinct. cbn [rev all24 app firstn].
    rewrite (average_variance_order 24 o24 y24 [10; 11; 12] [12; 11; 10] X24 o24_order eq_refl eq_refl (Permutation_rev [10; 11; 12])).
    rewrite (av_pairs y24 X24 1 ltac:(lia) _ _ i j Hi Hj P3). unfold sum24, sum_of, pl2, at_axis, cell. cbn [skipn map fold_right fst snd].
    destruct (two_cases i Hi) as [->| ->], (two_cases j Hj) as [->| ->]; cbn; field.
  - rewrite (sir_diag 24 _ _ 0 (/ 12 * (6 / 4)) X24r_wf ltac:(lia) EC EL E6 ltac:(lra)); [destruct (Rlt_dec _ _); [lra|reflexivity]|].
    intros i j Hi Hj. rewrite y24r_distinct. cbn [rev all24 app firstn].
    rewrite (between_order 24 o24 y24 [7; 8; 9; 10; 11; 12] [12; 11; 10; 9; 8; 7] X24 o24_order eq_refl eq_refl (Permutation_rev [7; 8; 9; 10; 11; 12])).
    rewrite (btw_pairs y24 X24 1 ltac:(lia) _ _ i j Hi Hj P). unfold sum24, sum_of, pl2, at_axis, cell. cbn [map fold_right fst snd].
    destruct (two_cases i Hi) as [->| ->], (two_cases j Hj) as [->| ->]; cbn; field.
  - set (v := 2 * sum24 (fun m s => (2 * (s * s) + m * m) * (2 * (s * s) + m * m)) pl2 + 4 * (sum24 (fun m s => m * m) pl2 * sum24 (fun m s => m * m) pl2)).
    assert (Hv : 0 < v) by (unfold v, sum24, sum_of, pl2; cbn [map fold_right fst snd]; lra).
    rewrite (dr_diag 24 _ _ (- 2) (v - 2) X24r_wf ltac:(lia) EC EL E6 ltac:(lra)); [destruct (Rlt_dec _ _); [lra|reflexivity]|].
    intros i j Hi Hj. rewrite y24r_distinct. cbn [rev all24 app firstn].
    rewrite (directional_order 24 o24 y24 [7; 8; 9; 10; 11; 12] [12; 11; 10; 9; 8; 7] X24 o24_order eq_refl eq_refl (Permutation_rev [7; 8; 9; 10; 11; 12])).
    rewrite (dir_pairs y24 X24 1 ltac:(lia) _ _ i j Hi Hj P). fold v. unfold at_axis, cell, delta.
    destruct (two_cases i Hi) as [->| ->], (two_cases j Hj) as [->| ->]; cbn; ring.
Qed.
(** an optimiser that stays at its start *)
Definition stay_opt (_ : dict) (_ : list R -> res R) (_ : list (list R -> res R)) (x0 : list R) : res (list R) := Ok x0.
Definition mean_ols (Z : list (list R)) (y : list R) : res (list R) := Ok (mean_of y :: vzeros (ncols Z - 1)).
Definition stay_env (dc : list (list R) -> list R -> R) : sd_env R :=
  mk_sdenv {| env_l1opt := fun _ x => x; env_es2 := 1 |} eigh2 inv_id inv_id no_svd2 (fun B => Ok B) (fun Z v => Ok (dc Z v)) mean_ols stay_opt.
Lemma fit_stays : forall dc n X y B d, npcov X = identity 2 -> (2 <= n)%nat -> wf n 2 X -> length y = n ->
  candidates X y B -> wf 2 1 B -> orthonormal_columns 2 1 B ->
  exists st' m, sd_fit (stay_env dc) (ex_st MDcov 1 false false d) X (A1 y) euclid false = (st', Ok m) /\ sm_P m = B.
Proof.
  intros dc n X y B d EC Hn W Ly [ES [E2 E3]] WB OB. unfold sd_fit, ex_st. cbn [ss_prm ex_prm sp_copy sp_ncomp ss_start ss_cons ss_args ss_dict sd_whitening sp_whiten].
  rewrite (wf_length _ _ _ W), (wf_ncols n 2 X W) by lia. rewrite Nat.min_r by lia. cbn [Nat.ltb Nat.leb].
  assert (EPr : exists pd, sd_prepare (stay_env dc) (ex_prm MDcov 1 false false) X = Ok pd /\ pd_Xs pd = X /\ pd_V pd = None).
  { unfold sd_prepare. rewrite (wf_ncols n 2 X W) by lia. cbn [Nat.eqb]. cbv zeta. unfold stay_env at 1. cbn [se_isqrt]. rewrite EC.
    assert (EN : exists N, inv_id (identity (A := R) 2) = Ok N) by (unfold inv_id; destruct (mat_eq_dec _ _) as [|NE]; [eauto|exfalso; apply NE; reflexivity]).
    destruct EN as [N EN]. rewrite EN. cbn [bind].
    cbn [ex_prm sp_compress sp_center_data sp_scale_data sp_whiten]. rewrite andb_false_r. cbn [bind]. eexists. split; [reflexivity|]. auto. }
  destruct EPr as [pd [EPr [EX EV]]]. unfold ex_prm in EPr |- *. rewrite EPr. cbn [bind].
  assert (EY : sd_response n (A1 y) = Ok y).
  { unfold sd_response. rewrite map_length, Ly, Nat.eqb_refl. cbn [negb].
    replace (forallb _ _) with true by (symmetry; apply forallb_forall; intros r Hr; apply in_map_iff in Hr as [v [<- _]]; reflexivity). cbn [negb].
    f_equal. unfold col. rewrite map_map. apply map_id. }
  rewrite EY. cbn [bind]. unfold sd_direct. cbn [sp_meth]. rewrite EX. unfold sd_optimise. cbn [ss_start ss_prm ss_cons ss_args ss_dict ss_X0].
  assert (Eb : start_value (stay_env dc) (ex_prm MDcov 1 false false) X y (pd_N2 pd) = Ok (flatF B)).
  { unfold start_value, stay_env. cbn [se_eigh se_orth se_dcov ex_prm sp_ncomp sp_scale_data]. cbv zeta. rewrite ES, E2, E3. cbn [bind n2_times].
    rewrite (npmatmul_total n 2 1) by (auto; lia). cbn [bind]. f_equal. f_equal. repeat match goal with |- context [if ?c then _ else _] => destruct c end; reflexivity. }
  unfold ex_prm in Eb. rewrite Eb. cbv zeta. unfold stay_env at 1. cbn [se_ipopt sp_meth sp_ncomp sp_scale_data]. unfold stay_opt at 1. cbn [bind].
  rewrite (unvec_flatF 2 1 B) by (auto; lia). cbn [bind n2_times]. unfold sd_finish, projector. unfold stay_env. cbn [se_inv se_ols].
  rewrite (inv_id_orth 2 1 B) by (auto; lia). cbn [bind]. rewrite (npmatmul_total n 2 1) by (auto; lia). cbn [bind].
  unfold mean_ols. cbn [bind]. rewrite EV. cbn [bind sp_return sd_is_mean sp_center andb negb]. eexists. eexists. split; [reflexivity|]. cbn. auto.
Qed.
Lemma unit_basis : wf 2 1 [[1]; [0]] /\ orthonormal_columns 2 1 [[1]; [0]] /\ wf 2 1 [[0]; [1]] /\ orthonormal_columns 2 1 [[0]; [1]].
Proof.
  repeat split; try (repeat constructor); intros i j Hi Hj; assert (i = 0%nat) by lia; assert (j = 0%nat) by lia; subst; unfold sum_to, sum_of, cell, delta; cbn; ring.
Qed.
Lemma mean_ols_free : ols_order_free mean_ols.
Proof.
  intros n p o Z y Ho W Hy. unfold mean_ols. assert (EM : mean_of (reorder o y) = mean_of y) by (apply mean_of_perm; symmetry; apply (reorder_perm n); auto). rewrite EM. do 4 f_equal. destruct n as [|n].
  - assert (Z = []) as -> by (destruct Z; [reflexivity|destruct W as [L _]; discriminate L]). apply Permutation_nil in Ho. subst o. reflexivity.
  - assert (WO : wf (S n) p (reorder o Z)) by (apply reorder_wf; auto). rewrite (wf_ncols (S n) p _ WO), (wf_ncols (S n) p _ W) by lia. reflexivity.
Qed.
Lemma start_depends : forall dc d, exists st1 m1 st2 m2,
  sd_fit (stay_env dc) (ex_st MDcov 1 false false d) X24 (A1 y24) euclid false = (st1, Ok m1) /\
  sd_fit (stay_env dc) (ex_st MDcov 1 false false d) (reorder o24 X24) (areorder o24 (A1 y24)) euclid false = (st2, Ok m2) /\
  sm_P m1 = [[1]; [0]] /\ sm_P m2 = [[0]; [1]].
Proof.
  intros dc d. destruct unit_basis as (W1 & O1 & W2 & O2).
  destruct (fit_stays dc 24 X24 y24 [[1]; [0]] d X24_cov ltac:(lia) X24_wf eq_refl first_candidates W1 O1) as (st1 & m1 & E1 & P1).
  assert (EC : npcov (reorder o24 X24) = identity 2) by (rewrite (npcov_order 24 2 o24 X24 o24_order X24_wf ltac:(lia)); apply X24_cov).
  assert (EL : length (reorder o24 y24) = 24%nat) by (apply (reorder_length 24); [apply o24_order|reflexivity]).
  destruct (fit_stays dc 24 _ _ [[0]; [1]] d EC ltac:(lia) X24r_wf EL last_candidates W2 O2) as (st2 & m2 & E2 & P2).
  exists st1, m1, st2, m2. split; [exact E1|]. split; [exact E2|]. auto.
Qed.
Lemma sudire_order_match : forall env st n p o X y metric bias, eigh_ok (se_eigh env) -> square_shape (se_isqrt env) -> svd_shapes (se_svd env) -> ols_order_free (se_ols env) ->
  (sp_compress (ss_prm st) = true \/ sp_whiten (ss_prm st) = true -> economy_svd_order_free (se_svd env)) -> sp_copy (ss_prm st) = true ->
  sp_center (ss_prm st) = CMean \/ sp_center (ss_prm st) = CMedian -> symmetric_metric metric ->
  is_matrix n p X -> (2 <= n)%nat -> (0 < p)%nat -> cases n y -> (forall ys, sd_response n y = Ok ys -> order_settings st ys) -> case_order n o ->
  match snd (sd_fit env st X y metric bias) with
  | Ok m => snd (sd_fit env st (reorder o X) (areorder o y) metric bias) = Ok (reorder_sd o m)
  | Err e => snd (sd_fit env st (reorder o X) (areorder o y) metric bias) = Err e
  end.
Proof.
  intros. rewrite (sudire_order_l env st n p o X y metric bias) by auto. destruct (snd (sd_fit env st X y metric bias)); reflexivity.
Qed.
Lemma sliced_order : forall eigh n p o X y k d continuous center scale,
  eigh_ok eigh -> is_matrix n p X -> (0 < n)%nat -> (0 < p)%nat -> length y = n -> case_order n o -> slices_suffice y k continuous ->
  SIR eigh (reorder o X) (reorder o y) k d continuous center scale = SIR eigh X y k d continuous center scale /\
  SAVE eigh (reorder o X) (reorder o y) k d continuous center scale = SAVE eigh X y k d continuous center scale /\
  DR eigh (reorder o X) (reorder o y) k d continuous center scale = DR eigh X y k d continuous center scale.
Proof.
  intros eigh n p o X y k d ct c s He W Hn Hp Ly Ho Hs.
  split; [apply (SIR_order eigh n p)|split; [apply (SAVE_order eigh n p)|apply (DR_order eigh n p)]]; auto.
Qed.
Lemma moments_order : forall eigh n p o X y d center scale,
  eigh_ok eigh -> is_matrix n p X -> (0 < n)%nat -> (0 < p)%nat -> length y = n -> case_order n o ->
  PHD eigh (reorder o X) (reorder o y) d center scale = PHD eigh X y d center scale /\
  IHT eigh (reorder o X) (reorder o y) d center scale = IHT eigh X y d center scale.
Proof. intros eigh n p o X y d c s He W Hn Hp Ly Ho. split; [apply (PHD_order eigh n p)|apply (IHT_order eigh n p)]; auto. Qed.
Lemma categories_refuted :
  ~ (forall eigh n p o X y k d center scale, eigh_ok eigh -> is_matrix n p X -> length y = n -> case_order n o ->
     SIR eigh (reorder o X) (reorder o y) k d false center scale = SIR eigh X y k d false center scale) /\
  (forall eigh B B', eigh_ok eigh -> SIR eigh [[1; 0]; [0; 1]] [1; 2] 1 1 false false false = Ok B ->
     SIR eigh [[0; 1]; [1; 0]] [2; 1] 1 1 false false false = Ok B' -> B' <> B).
Proof.
  split; [|exact few_slices]. intros H. destruct few_slices_ok as (B & B' & E & E').
  specialize (H eigh2 2%nat 2%nat [1; 0]%nat X2o y2o 1%nat 1%nat false false eigh2_ok ltac:(split; [reflexivity|repeat constructor]) eq_refl swap_order).
  apply (few_slices eigh2 B B' eigh2_ok E E'). rewrite E, E' in H. apply Ok_inj in H. exact H.
Qed.
Lemma inv_id_square : square_shape inv_id.
Proof. intros p M N W E. unfold inv_id in E. destruct (mat_eq_dec M _) as [EM|]; [|discriminate]. apply Ok_inj in E. subst N. exact W. Qed.
(** decomposition of a matrix whose first row alone is not zero *)
Definition row_norm (r : list R) : R := sqrt (sum_of (map (fun v => v * v) r)).
Definition svd_first (M : list (list R)) : res (list (list R) * list R * list (list R)) :=
  match M with
  | [] => Err LinAlgError
  | r :: M' => Ok ([1] :: repeat [0] (length M'), [row_norm r], [map (fun v => v / row_norm r) r])
  end.
Lemma transpose_one : forall u : list R, transpose [u] = map (fun v => [v]) u.
Proof.
  intros u. unfold transpose, cols, ncols. cbn [hd_error hd]. apply (list_ext _ _ []); [rewrite !map_length, seq_length; reflexivity|].
  intros i Hi. rewrite map_length, seq_length in Hi. rewrite (nth_map_lt _ _ _ 0%nat) by (rewrite seq_length; auto). rewrite (nth_map_lt _ u _ 0) by auto. rewrite seq_nth by auto. reflexivity.
Qed.
Lemma svd_first_free : economy_svd_order_free svd_first.
Proof.
  intros n p o X Ho W. destruct n as [|n].
  { assert (X = []) as -> by (destruct X; [reflexivity|destruct W as [L _]; discriminate L]). apply Permutation_nil in Ho. subst o. cbn. reflexivity. }
  assert (WO : wf (S n) p (reorder o X)) by (apply reorder_wf; auto). unfold transpose, cols. rewrite (wf_ncols (S n) p X W), (wf_ncols (S n) p _ WO) by lia.
  destruct p as [|p]; [reflexivity|]. cbn [seq map svd_first].
  assert (EC : col 0 (reorder o X) = reorder o (col 0 X)) by (unfold col; rewrite reorder_map; reflexivity).
  assert (EN : row_norm (col 0 (reorder o X)) = row_norm (col (A := R) 0 X)).
  { unfold row_norm. f_equal. apply sum_of_perm, Permutation_map. rewrite EC. symmetry. apply (reorder_perm (S n)); auto. unfold col. rewrite map_length. apply W. }
  exists [map (fun v => v / row_norm (col 0 (reorder o X))) (col 0 (reorder o X))]. split.
  - rewrite EN, !map_length. reflexivity.
  - change (map (fun j => col j ?M) (seq 0 (ncols ?M))) with (transpose M). rewrite !transpose_one, EN, EC, !reorder_map. reflexivity.
Qed.
Lemma start_refuted : forall dc, exists n o X y st m m',
  (eigh_ok (se_eigh (stay_env dc)) /\ square_shape (se_isqrt (stay_env dc)) /\ svd_shapes (se_svd (stay_env dc)) /\ ols_order_free (se_ols (stay_env dc))) /\
  (sp_meth (ss_prm st) = MDcov /\ ss_start st = None /\ sp_copy (ss_prm st) = true /\ sp_center (ss_prm st) = CMean /\ sp_compress (ss_prm st) = false /\ sp_whiten (ss_prm st) = false) /\
  is_matrix n 2 X /\ length y = n /\ case_order n o /\
  snd (sd_fit (stay_env dc) st X (A1 y) euclid false) = Ok m /\ snd (sd_fit (stay_env dc) st (reorder o X) (A1 (reorder o y)) euclid false) = Ok m' /\
  sm_P m = [[1]; [0]] /\ sm_P m' = [[0]; [1]].
Proof.
  intros dc. destruct (start_depends dc []) as (st1 & m1 & st2 & m2 & E1 & E2 & P1 & P2).
  exists 24%nat, o24, X24, y24, (ex_st MDcov 1 false false []), m1, m2.
  split; [split; [exact eigh2_ok|]; split; [exact inv_id_square|]; split; [exact no_svd2_ok|exact mean_ols_free]|].
  split; [repeat split; reflexivity|]. split; [exact X24_wf|]. split; [reflexivity|]. split; [exact o24_order|].
  rewrite E1. cbn [areorder] in E2. rewrite E2. auto.
Qed.
