(** Order of the cases: dicomo. *)

From Coq Require Import String Reals List Arith ZArith Bool Lia Lra Permutation.
Import List. Import ListNotations.
From Verif Require Import Num Err Vec VecR OrdR L_Mat L_Lin L_Matmul S_Stats L_Stats S_Order L_Order M_Utils M_Preproc M_Dicomo
  L_Scaling L_Scaling2 L_OrderSc.
Open Scope R_scope.

(** reordering both the rows and the columns of a square matrix *)
Definition mre (o : list nat) (M : list (list R)) : list (list R) := map (fun i => map (fun j => mget (A := R) M i j) o) o.
Definition oi (o : list nat) (i : nat) : nat := nth i o 0%nat.
Lemma map_seq_order : forall {T} n o (g : nat -> T), case_order n o -> map (fun i => g (oi o i)) (seq 0 n) = map g o.
Proof.
  intros T n o g Ho. pose proof (order_length n o Ho) as HL. clear Ho. subst n. unfold oi. induction o as [|a o IH]; auto.
  cbn [length seq map]. f_equal. rewrite <- seq_shift, map_map. exact IH.
Qed.
Lemma oi_in : forall n o i, case_order n o -> (i < n)%nat -> In (oi o i) o.
Proof. intros n o i Ho Hi. apply nth_In. rewrite (order_length n o Ho). auto. Qed.
Lemma oi_lt : forall n o i, case_order n o -> (i < n)%nat -> (oi o i < n)%nat.
Proof. intros n o i Ho Hi. eapply order_in; eauto. eapply oi_in; eauto. Qed.
Lemma oi_inj : forall n o i j, case_order n o -> (i < n)%nat -> (j < n)%nat -> ((oi o i =? oi o j)%nat = (i =? j)%nat).
Proof.
  intros n o i j Ho Hi Hj. assert (ND : NoDup o) by (apply (Permutation_NoDup Ho), seq_NoDup).
  destruct (Nat.eqb_spec i j) as [->|Hne]; [apply Nat.eqb_refl|]. apply Nat.eqb_neq. intros E. apply Hne. rewrite (NoDup_nth o 0%nat) in ND.
  apply ND; auto; rewrite (order_length n o Ho); auto.
Qed.
Lemma reorder_oi : forall {T} n o (l : list T) d i, case_order n o -> length l = n -> (i < n)%nat -> nth i (reorder o l) d = nth (oi o i) l d.
Proof.
  intros T n o l d i Ho Hl Hi. rewrite (reorder_nth n o l d) by auto. rewrite (nth_map_lt _ _ _ 0%nat) by (rewrite (order_length n o Ho); auto). reflexivity.
Qed.
Lemma mre_wf : forall n o M, case_order n o -> wf n n (mre o M).
Proof.
  intros n o M Ho. pose proof (order_length n o Ho) as HL. split; [unfold mre; rewrite map_length; auto|]. unfold mre. apply Forall_map, Forall_forall. intros i _. rewrite map_length. auto.
Qed.
Lemma mre_get : forall n o M i j, case_order n o -> (i < n)%nat -> (j < n)%nat -> mget (A := R) (mre o M) i j = mget (A := R) M (oi o i) (oi o j).
Proof.
  intros n o M i j Ho Hi Hj. pose proof (order_length n o Ho) as HL. unfold mre, mget at 1. rewrite (nth_map_lt _ _ _ 0%nat) by lia. rewrite (nth_map_lt _ _ _ 0%nat) by lia. reflexivity.
Qed.
Lemma mre_row : forall n o M i, case_order n o -> wf n n M -> (i < n)%nat -> nth i (mre o M) [] = reorder o (nth (oi o i) M []).
Proof.
  intros n o M i Ho HM Hi. pose proof (order_length n o Ho) as HL. unfold mre. rewrite (nth_map_lt _ _ _ 0%nat) by lia. fold (oi o i).
  rewrite (reorder_nth n o _ 0) by (auto; eapply wf_row; eauto; apply nth_In; rewrite (wf_length n n M HM); apply (oi_lt n); auto). reflexivity.
Qed.
Lemma mre_reorder : forall n o M, case_order n o -> wf n n M -> mre o M = reorder o (map (reorder o) M).
Proof.
  intros n o M Ho HM. assert (LM : length M = n) by (eapply wf_length; eauto). rewrite (reorder_nth n o _ []) by (auto; rewrite map_length; auto). unfold mre. apply map_ext_in. intros i Hi.
  assert (Hin : (i < n)%nat) by (eapply order_in; eauto). rewrite (nth_map_lt _ _ _ []) by lia.
  rewrite (reorder_nth n o _ 0) by (auto; eapply wf_row; eauto; apply nth_In; lia). reflexivity.
Qed.
Lemma concat_perm : forall {T} (X Y : list (list T)), Permutation X Y -> Permutation (concat X) (concat Y).
Proof. intros T X Y HP. rewrite <- (map_id X), <- (map_id Y), <- !flat_map_concat_map. apply Permutation_flat_map, HP. Qed.
Lemma concat_map_perm : forall {T} (f : list T -> list T) (X : list (list T)), (forall r, In r X -> Permutation r (f r)) -> Permutation (concat X) (concat (map f X)).
Proof. intros T f X; induction X as [|r X IH]; intros H; cbn; auto. apply Permutation_app; [apply H; left; auto|apply IH; intros; apply H; right; auto]. Qed.
Lemma mre_concat : forall n o M, case_order n o -> wf n n M -> Permutation (concat M) (concat (mre o M)).
Proof.
  intros n o M Ho HM. rewrite (mre_reorder n) by auto. etransitivity; [|apply concat_perm, (reorder_perm n); auto; rewrite map_length; eapply wf_length; eauto].
  apply concat_map_perm. intros r Hr. apply (reorder_perm n); auto. eapply wf_row; eauto.
Qed.
Lemma mre_map : forall n o (f : R -> R) M, case_order n o -> wf n n M -> map (map f) (mre o M) = mre o (map (map f) M).
Proof.
  intros n o f M Ho HM. assert (W2 : wf n n (map (map f) M)) by (apply wf_mapmap; auto). rewrite !(mre_reorder n) by auto. rewrite <- reorder_map. f_equal. rewrite !map_map.
  apply map_ext. intros r. symmetry. apply reorder_map.
Qed.
Lemma map2_vmul_wf : forall n (X Y : list (list R)), wf n n X -> wf n n Y -> wf n n (map2 vmul X Y).
Proof.
  intros n X Y [L1 F1] [L2 F2]. split; [rewrite map2_length_eq; congruence|]. clear L1 L2. revert Y F2. induction X as [|r X IH]; intros [|q Y] F2; cbn [map2]; constructor.
  - unfold vmul. inversion F1; inversion F2; subst. rewrite map2_length_eq; congruence.
  - apply IH; inversion F1; inversion F2; auto.
Qed.
Lemma mre_vmul : forall n o X Y, case_order n o -> wf n n X -> wf n n Y -> map2 vmul (mre o X) (mre o Y) = mre o (map2 vmul X Y).
Proof.
  intros n o X Y Ho HX HY. rewrite !(mre_reorder n) by (auto using map2_vmul_wf). assert (LX : length X = n) by (eapply wf_length; eauto). assert (LY : length Y = n) by (eapply wf_length; eauto).
  rewrite <- (reorder_map2 _ n) by (auto; rewrite map_length; auto). f_equal. clear LX LY. destruct HX as [_ F1], HY as [_ F2]. revert Y F2. induction X as [|r X IH]; intros [|q Y] F2; auto.
  cbn [map map2]. inversion F1; inversion F2; subst. f_equal; [|apply IH; auto]. unfold vmul. symmetry. apply (reorder_map2 _ (length r)); auto.
Qed.

(* ---------------- trimmed means and moments -------------------------- *)
Lemma dtrim_mean_perm : forall t (v v' : list R), Permutation v v' -> dtrim_mean t v = dtrim_mean t v'.
Proof.
  intros t v v' HP. unfold dtrim_mean. destruct (neqb t n0); [rewrite (vmean_perm v v' HP); reflexivity|].
  unfold trim_mean1. rewrite (Permutation_length HP), (sort_permutation v v' HP). reflexivity.
Qed.
Lemma locest_perm : forall b t (v v' : list R), Permutation v v' -> locest b t v = locest b t v'.
Proof. intros b t v v' HP. unfold locest. rewrite (vmedian_perm v v' HP), (dtrim_mean_perm t v v' HP). reflexivity. Qed.
Lemma forallb_perm : forall {T} (f : T -> bool) l l', Permutation l l' -> forallb f l = forallb f l'.
Proof.
  intros T f l l' HP. induction HP; cbn; auto; try congruence. destruct (f x), (f y); reflexivity.
Qed.
Lemma trim_mom_order : forall n o x y med order t opt fs, case_order n o -> length x = n -> length y = n ->
  trim_mom (reorder o x) (reorder o y) med order t opt fs = trim_mom (A := R) x y med order t opt fs.
Proof.
  intros n o x y med order t opt fs Ho Hx Hy. assert (PX : Permutation (reorder o x) x) by (symmetry; apply (reorder_perm n); auto).
  assert (PY : Permutation (reorder o y) y) by (symmetry; apply (reorder_perm n); auto).
  assert (P2 : forall {T} (g : R -> R -> T), Permutation (map2 g (reorder o x) (reorder o y)) (map2 g x y)).
  { intros T g. rewrite <- (reorder_map2 _ n) by auto. symmetry. apply (reorder_perm n); auto. rewrite map2_length_eq; congruence. }
  unfold trim_mom. destruct order as [|[|order]]; [reflexivity|apply locest_perm; auto|]. cbv zeta. destruct med.
  - rewrite (forallb_perm _ _ _ (P2 bool (@neqb R Num_R))). rewrite (vmedian_perm _ _ PX), (vmedian_perm _ _ PY). do 2 f_equal.
    destruct (forallb (fun b => b) (map2 neqb x y)); [|apply vmedian_perm, P2]. apply vmedian_perm, Permutation_map, P2.
  - rewrite (Permutation_length PX), (dtrim_mean_perm t _ _ PX), (dtrim_mean_perm t _ _ PY). destruct (dtrim_mean t x) as [mx|]; [|reflexivity]. cbn [bind].
    destruct (dtrim_mean t y) as [my|]; [|reflexivity]. cbn [bind]. rewrite (dtrim_mean_perm t _ _ (P2 R _)). reflexivity.
Qed.

(* ---------------- distances ------------------------------------------ *)
Lemma dist_matrix_wf : forall metric (X : list (list R)), wf (length X) (length X) (dist_matrix metric X).
Proof.
  intros metric X. unfold dist_matrix. split; [rewrite map_length, seq_length; auto|]. apply Forall_map, Forall_forall. intros i _. rewrite map_length, seq_length. auto.
Qed.
Lemma sq_ext : forall n (M N : list (list R)), wf n n M -> wf n n N -> (forall i j, (i < n)%nat -> (j < n)%nat -> mget (A := R) M i j = mget (A := R) N i j) -> M = N.
Proof.
  intros n M N HM HN H. apply (list_ext _ _ []); [rewrite (wf_length _ _ _ HM), (wf_length _ _ _ HN); auto|]. intros i Hi. rewrite (wf_length _ _ _ HM) in Hi.
  assert (L1 : length (nth i M []) = n) by (apply (wf_row n n M _ HM), nth_In; rewrite (wf_length _ _ _ HM); auto).
  assert (L2 : length (nth i N []) = n) by (apply (wf_row n n N _ HN), nth_In; rewrite (wf_length _ _ _ HN); auto).
  apply (list_ext _ _ 0); [congruence|]. intros j Hj. apply H; auto; lia.
Qed.
Lemma mget_seq2 : forall n (f : nat -> nat -> R) i j, (i < n)%nat -> (j < n)%nat -> mget (A := R) (map (fun i => map (fun j => f i j) (seq 0 n)) (seq 0 n)) i j = f i j.
Proof.
  intros n f i j Hi Hj. unfold mget. rewrite (nth_map_lt _ _ _ 0%nat) by (rewrite seq_length; auto). rewrite (nth_map_lt _ _ _ 0%nat) by (rewrite seq_length; auto).
  rewrite !seq_nth by auto. reflexivity.
Qed.
Lemma euclid_sym : symmetric_metric (euclid (A := R)).
Proof.
  intros u v. unfold euclid, vnorm, vsqnorm. f_equal. f_equal. unfold vsub. revert v. induction u as [|a u IH]; intros [|b v]; auto. cbn [map2 map]. rewrite (IH v). f_equal. unfold nsqr. rnum. ring.
Qed.
Lemma dist_matrix_order : forall metric n o (X : list (list R)), symmetric_metric metric -> case_order n o -> length X = n ->
  dist_matrix metric (reorder o X) = mre o (dist_matrix metric X).
Proof.
  intros metric n o X Hm Ho HX. assert (LO : length (reorder o X) = n) by (apply (reorder_length n); auto).
  apply (sq_ext n); [rewrite <- LO at 1 2; apply dist_matrix_wf|apply mre_wf; auto|]. intros i j Hi Hj. rewrite (mre_get n) by auto.
  unfold dist_matrix. cbv zeta. rewrite LO, HX. rewrite !mget_seq2 by (auto; apply (oi_lt n); auto).
  rewrite !(reorder_oi n) by auto. pose proof (oi_inj n o i j Ho Hi Hj) as HI.
  destruct (Nat.ltb_spec i j), (Nat.ltb_spec (oi o i) (oi o j)), (Nat.ltb_spec j i), (Nat.ltb_spec (oi o j) (oi o i)); auto; try lia;
    assert (oi o i = oi o j \/ oi o i <> oi o j) as [Eq|Ne] by lia; try lia; try (rewrite Eq, Nat.eqb_refl in HI; symmetry in HI; apply Nat.eqb_eq in HI; lia);
    assert (i = j) by lia; subst j; lia.
Qed.
Lemma mapM_reorder : forall n o (f : list R -> res R) (l : list (list R)), case_order n o -> length l = n ->
  match mapM f l with Ok v => mapM f (reorder o l) = Ok (reorder o v) | Err _ => True end.
Proof.
  intros n o f l Ho Hl. destruct (mapM f l) as [v|] eqn:E; [|exact I].
  assert (HV : length v = n /\ forall i, (i < n)%nat -> f (nth i l []) = Ok (nth i v 0)).
  { subst n. clear Ho. revert v E. induction l as [|x l IH]; intros v E; cbn [mapM] in E.
    - apply Ok_inj in E. subst v. split; auto. cbn. intros; lia.
    - destruct (f x) as [a|] eqn:Ea; [|discriminate]. cbn [bind] in E. destruct (mapM f l) as [w|]; [|discriminate]. cbn [bind] in E. apply Ok_inj in E. subst v.
      destruct (IH w eq_refl) as [L H]. split; [cbn; lia|]. intros [|i] Hi; auto. cbn [nth]. apply H. cbn in Hi. lia. }
  destruct HV as [LV HV]. rewrite (reorder_nth n o l []) by auto. rewrite (reorder_nth n o v 0) by auto. assert (HO : forall i, In i o -> (i < n)%nat) by (intros; eapply order_in; eauto).
  clear Ho. induction o as [|i o IH]; auto. cbn [map mapM]. rewrite HV by (apply HO; left; auto). cbn [bind]. rewrite IH by (intros; apply HO; right; auto). reflexivity.
Qed.

Lemma dtrim_err : forall t (v v' : list R) e, length v = length v' -> dtrim_mean t v = Err e -> e = ValueError /\ dtrim_mean t v' = Err ValueError.
Proof.
  intros t v v' e HL E. unfold dtrim_mean in *. destruct (neqb t n0); [discriminate|]. unfold trim_mean1 in *. cbv zeta in *. rewrite <- HL.
  destruct (_ <? _)%Z; [|discriminate]. injection E as <-. auto.
Qed.
Lemma mapM_dtrim_order : forall n q o t (l : list (list R)), case_order n o -> wf n q l ->
  mapM (dtrim_mean t) (reorder o l) = match mapM (dtrim_mean t) l with Ok v => Ok (reorder o v) | Err e => Err e end.
Proof.
  intros n q o t l Ho HW. assert (Hl : length l = n) by (eapply wf_length; eauto). pose proof (mapM_reorder n o (dtrim_mean t) l Ho Hl) as H.
  destruct (mapM (dtrim_mean t) l) as [v|e] eqn:E; [exact H|]. clear H.
  assert (HE : e = ValueError /\ forall v, length v = q -> dtrim_mean t v = Err ValueError).
  { clear Ho. destruct HW as [_ HF]. clear Hl. induction l as [|x l IH]; [discriminate|]. cbn [mapM] in E. inversion HF as [|? ? Hx HF']; subst.
    destruct (dtrim_mean t x) as [a|ex] eqn:Ea.
    - cbn [bind] in E. destruct (mapM (dtrim_mean t) l) as [w|e2]; [discriminate|]. cbn [bind] in E. injection E as ->. apply IH; auto.
    - cbn [bind] in E. injection E as ->. destruct (dtrim_err t x x e eq_refl Ea) as [-> _]. split; auto. intros v Hv. apply (dtrim_err t x v ValueError); [congruence|exact Ea]. }
  destruct HE as [-> HE]. pose proof (reorder_perm n o l Ho Hl) as HP. assert (WO : wf n q (reorder o l)) by (apply reorder_wf; auto).
  destruct l as [|x l]; [discriminate|]. destruct (reorder o (x :: l)) as [|x' l']; [apply Permutation_length in HP; discriminate|]. cbn [mapM].
  destruct WO as [_ HF]. inversion HF; subst. rewrite HE by auto. reflexivity.
Qed.
Lemma mapM_cols_seq : forall n (f : list R -> res R) M, mapM (fun j => f (col j M)) (seq 0 n) = mapM f (map (fun j => col j M) (seq 0 n)).
Proof. intros n f M. generalize (seq 0 n). intros l. induction l as [|j l IH]; cbn; auto. rewrite IH. reflexivity. Qed.
Lemma mre_col : forall n o M j, case_order n o -> wf n n M -> (j < n)%nat -> col j (mre o M) = reorder o (col (oi o j) M).
Proof.
  intros n o M j Ho HM Hj. assert (LM : length M = n) by (eapply wf_length; eauto). rewrite (reorder_nth n o _ 0) by (auto; rewrite col_length; auto). unfold col at 1, mre. rewrite map_map. apply map_ext_in. intros i Hi.
  assert (Hin : (i < n)%nat) by (eapply order_in; eauto). rewrite (nth_map_lt _ _ _ 0%nat) by (rewrite (order_length n o Ho); auto). unfold col. rewrite (nth_map_lt _ _ _ []) by lia. reflexivity.
Qed.
Lemma mre_cols : forall n o M, case_order n o -> wf n n M -> map (fun j => col j (mre o M)) (seq 0 n) = reorder o (map (fun j => reorder o (col j M)) (seq 0 n)).
Proof.
  intros n o M Ho HM. rewrite (map_ext_in _ (fun j => reorder o (col (oi o j) M))).
  - rewrite (map_seq_order n o (fun j => reorder o (col j M)) Ho). rewrite (reorder_nth n o _ []) by (auto; rewrite map_length, seq_length; auto). apply map_ext_in. intros i Hi.
    assert (Hin : (i < n)%nat) by (eapply order_in; eauto). rewrite (nth_map_lt _ _ _ 0%nat) by (rewrite seq_length; auto). rewrite seq_nth by auto. reflexivity.
  - intros j Hj. apply in_seq in Hj. apply (mre_col n); auto. lia.
Qed.
Lemma mapM_ext_in : forall {B C} (f g : B -> res C) l, (forall x, In x l -> f x = g x) -> mapM f l = mapM g l.
Proof. intros B C f g l; induction l as [|x l IH]; intros H; cbn; auto. rewrite H by (left; auto). rewrite IH by (intros; apply H; right; auto). reflexivity. Qed.
Lemma mapM_map : forall {B C D} (f : C -> res D) (g : B -> C) l, mapM f (map g l) = mapM (fun x => f (g x)) l.
Proof. intros B C D f g l; induction l as [|x l IH]; cbn; auto. rewrite IH. reflexivity. Qed.
Lemma cols_dtrim_order : forall n o t M, case_order n o -> wf n n M ->
  mapM (fun j => dtrim_mean t (col j (mre o M))) (seq 0 n) = match mapM (fun j => dtrim_mean t (col j M)) (seq 0 n) with Ok v => Ok (reorder o v) | Err e => Err e end.
Proof.
  intros n o t M Ho HM. rewrite (mapM_cols_seq n (dtrim_mean t) (mre o M)), (mapM_cols_seq n (dtrim_mean t) M). rewrite (mre_cols n) by auto.
  assert (W : forall N : list (list R), length N = n -> wf n n (map (fun j => col j N) (seq 0 n))).
  { intros N HN. split; [rewrite map_length, seq_length; auto|]. apply Forall_map, Forall_forall. intros j _. rewrite col_length. auto. }
  assert (LM : length M = n) by (eapply wf_length; eauto).
  replace (map (fun j => reorder o (col j M)) (seq 0 n)) with (map (reorder o) (map (fun j => col j M) (seq 0 n))) by (rewrite map_map; reflexivity).
  pose proof (W M LM) as WM. rewrite reorder_map, mapM_map. rewrite (mapM_ext_in _ (dtrim_mean t)).
  - apply (mapM_dtrim_order n n); auto.
  - intros r Hr. apply dtrim_mean_perm. symmetry. apply (reorder_perm n); auto. exact (wf_row n n _ r (reorder_wf n n o _ Ho WM) Hr).
Qed.
Lemma rows_dtrim_order : forall n o t M, case_order n o -> wf n n M ->
  mapM (dtrim_mean t) (mre o M) = match mapM (dtrim_mean t) M with Ok v => Ok (reorder o v) | Err e => Err e end.
Proof.
  intros n o t M Ho HM. rewrite (mre_reorder n) by auto. rewrite reorder_map, mapM_map. rewrite (mapM_ext_in _ (dtrim_mean t)).
  - apply (mapM_dtrim_order n n); auto.
  - intros r Hr. apply dtrim_mean_perm. symmetry. apply (reorder_perm n); auto. exact (wf_row n n _ r (reorder_wf n n o _ Ho HM) Hr).
Qed.
Lemma center_cells_wf : forall (a : list (list R)) rows cls mu bc, wf (length a) (length a) (center_cells a rows cls mu bc).
Proof.
  intros. unfold center_cells. split; [rewrite map_length, seq_length; auto|]. apply Forall_map, Forall_forall. intros i _. rewrite map_length, seq_length. auto.
Qed.
Lemma center_cells_order : forall n o M rows cls mu bc, case_order n o -> wf n n M -> length rows = n -> length cls = n ->
  center_cells (mre o M) (reorder o rows) (reorder o cls) mu bc = mre o (center_cells M rows cls mu bc).
Proof.
  intros n o M rows cls mu bc Ho HM Hr Hc. assert (LM : length M = n) by (eapply wf_length; eauto). assert (LO : length (mre o M) = n) by (eapply wf_length, mre_wf; eauto).
  apply (sq_ext n); [rewrite <- LO at 1 2; apply center_cells_wf|apply mre_wf; auto|]. intros i j Hi Hj. rewrite (mre_get n) by auto.
  unfold center_cells. cbv zeta. rewrite LO, LM. rewrite !mget_seq2 by (auto; apply (oi_lt n); auto). rewrite (oi_inj n) by auto. rewrite (mre_get n) by auto. rewrite !(reorder_oi n) by auto. reflexivity.
Qed.
Lemma mapM_length : forall {B C} (f : B -> res C) l v, mapM f l = Ok v -> length v = length l.
Proof.
  intros B C f l; induction l as [|x l IH]; intros v E; cbn in E; [apply Ok_inj in E; subst; auto|]. destruct (f x); [|discriminate]. cbn [bind] in E.
  destruct (mapM f l) as [w|]; [|discriminate]. cbn [bind] in E. apply Ok_inj in E. subst v. cbn. rewrite (IH w eq_refl). reflexivity.
Qed.
Definition reorder_dc (o : list nat) (r : res (list (list R) * Z)) : res (list (list R) * Z) := match r with Ok (M, k) => Ok (mre o M, k) | Err e => Err e end.
Lemma double_center_order : forall n o M c t bc, case_order n o -> wf n n M ->
  double_center_flex (mre o M) c t bc = reorder_dc o (double_center_flex M c t bc).
Proof.
  intros n o M c t bc Ho HM. assert (LM : length M = n) by (eapply wf_length; eauto). assert (LO : length (mre o M) = n) by (eapply wf_length, mre_wf; eauto).
  unfold double_center_flex. cbv zeta. rewrite LO, LM. rewrite <- (dtrim_mean_perm t _ _ (mre_concat n o M Ho HM)). rewrite <- (vmedian_perm _ _ (mre_concat n o M Ho HM)).
  rewrite (cols_dtrim_order n), (rows_dtrim_order n) by auto.
  destruct (c =? "mean")%string.
  - destruct (dtrim_mean t (concat M)) as [mu|]; [|reflexivity]. cbn [bind]. destruct (mapM (fun j => dtrim_mean t (col j M)) (seq 0 n)) as [cl|] eqn:Ec; [|reflexivity]. cbn [bind].
    destruct (mapM (dtrim_mean t) M) as [rw|] eqn:Er; [|reflexivity]. cbn [bind reorder_dc]. apply mapM_length in Ec, Er. rewrite seq_length in Ec. rewrite LM in Er.
    destruct bc; rewrite <- ?reorder_map, (center_cells_order n) by (rewrite ?map_length; auto); reflexivity.
  - destruct (c =? "median")%string; [|reflexivity]. cbn [reorder_dc]. do 2 f_equal.
    replace (map vmedian (mre o M)) with (reorder o (map vmedian M)).
    2:{ rewrite (mre_reorder n) by auto. rewrite !reorder_map, map_map. apply map_ext_in. intros r Hr. apply vmedian_perm, (reorder_perm n); auto. exact (wf_row n n _ r (reorder_wf n n o _ Ho HM) Hr). }
    replace (map (fun j => vmedian (col j (mre o M))) (seq 0 n)) with (reorder o (map (fun j => vmedian (col j M)) (seq 0 n))).
    2:{ rewrite <- (map_map (fun j => col j (mre o M)) vmedian), <- (map_map (fun j => col j M) vmedian). rewrite (mre_cols n) by auto. rewrite <- reorder_map, map_map. rewrite map_map. f_equal.
        apply map_ext. intros j. apply vmedian_perm, (reorder_perm n); auto. rewrite col_length; auto. }
    apply (center_cells_order n); auto; rewrite map_length, ?seq_length; auto.
Qed.
Lemma double_center_wf : forall n (M D : list (list R)) c t bc k, wf n n M -> double_center_flex M c t bc = Ok (D, k) -> wf n n D.
Proof.
  intros n M D c t bc k HM E. assert (LM : length M = n) by (eapply wf_length; eauto). unfold double_center_flex in E. cbv zeta in E. destruct (c =? "mean")%string.
  - destruct (dtrim_mean t (concat M)); [|discriminate]. cbn [bind] in E. destruct (mapM (fun j => dtrim_mean t (col j M)) (seq 0 (length M))); [|discriminate]. cbn [bind] in E.
    destruct (mapM (dtrim_mean t) M); [|discriminate]. cbn [bind] in E. apply Ok_inj in E. injection E as <- _. rewrite <- LM. apply center_cells_wf.
  - destruct (c =? "median")%string; [|discriminate]. apply Ok_inj in E. injection E as <- _. rewrite <- LM. apply center_cells_wf.
Qed.
Lemma dmc_order : forall metric n o X c t bc, symmetric_metric metric -> case_order n o -> length X = n ->
  distance_matrix_centered metric (reorder o X) c t bc = reorder_dc o (distance_matrix_centered metric X c t bc).
Proof.
  intros metric n o X c t bc Hm Ho HX. unfold distance_matrix_centered. rewrite (dist_matrix_order metric n) by auto. apply (double_center_order n); auto. rewrite <- HX. apply dist_matrix_wf.
Qed.
Lemma dmc_wf : forall metric n (X D : list (list R)) c t bc k, length X = n -> distance_matrix_centered metric X c t bc = Ok (D, k) -> wf n n D.
Proof. intros metric n X D c t bc k HX E. eapply double_center_wf; [|exact E]. rewrite <- HX. apply dist_matrix_wf. Qed.
Lemma msquare_iter_wf : forall n k M, wf n n M -> wf n n (Nat.iter k (msquare (A := R)) M).
Proof. intros n k M HM; induction k as [|k IH]; cbn; auto. unfold msquare. apply wf_mapmap. exact IH. Qed.
Lemma msquare_iter_order : forall n o k M, case_order n o -> wf n n M -> Nat.iter k (msquare (A := R)) (mre o M) = mre o (Nat.iter k (msquare (A := R)) M).
Proof.
  intros n o k M Ho HM; induction k as [|k IH]; auto. change (Nat.iter (S k) (msquare (A := R)) (mre o M)) with (msquare (Nat.iter k (msquare (A := R)) (mre o M))). rewrite IH.
  change (Nat.iter (S k) (msquare (A := R)) M) with (msquare (Nat.iter k (msquare (A := R)) M)). unfold msquare at 1 3. apply (mre_map n); auto. apply msquare_iter_wf. auto.
Qed.
Definition reorder_dm (o : list nat) (r : res (list (list R) * list (list R) * R)) : res (list (list R) * list (list R) * R) :=
  match r with Ok (a, b, m) => Ok (mre o a, mre o b, m) | Err e => Err e end.
Lemma distance_moment_order : forall n o alias X Y nn c t bc order opt, case_order n o -> wf n n X -> wf n n Y ->
  distance_moment alias (mre o X) (mre o Y) nn c t bc order opt = reorder_dm o (distance_moment alias X Y nn c t bc order opt) /\
  match distance_moment alias X Y nn c t bc order opt with Ok (a, b, _) => wf n n a /\ wf n n b | Err _ => True end.
Proof.
  intros n o alias X Y nn c t bc order opt Ho HX HY. unfold distance_moment. cbv zeta.
  rewrite (wf_length _ _ _ (mre_wf n o X Ho)), (wf_length _ _ _ (mre_wf n o Y Ho)), (wf_length _ _ _ HX), (wf_length _ _ _ HY), Nat.eqb_refl. cbn [negb].
  set (s1 := if (2 <? order)%nat then (order - opt)%nat else 1%nat). set (s2 := if (2 <? order)%nat then opt else 1%nat).
  rewrite (msquare_iter_order n) by auto. set (X1 := Nat.iter (s1 - 1) msquare X). assert (W1 : wf n n X1) by (apply msquare_iter_wf; auto).
  replace (if alias then mre o X1 else mre o Y) with (mre o (if alias then X1 else Y)) by (destruct alias; reflexivity).
  rewrite (msquare_iter_order n) by (destruct alias; auto). set (Y1 := Nat.iter (s2 - 1) msquare (if alias then X1 else Y)). assert (W2 : wf n n Y1) by (apply msquare_iter_wf; destruct alias; auto).
  replace (if alias then mre o Y1 else mre o X1) with (mre o (if alias then Y1 else X1)) by (destruct alias; reflexivity). set (X2 := if alias then Y1 else X1). assert (W3 : wf n n X2) by (unfold X2; destruct alias; auto).
  rewrite (mre_vmul n) by auto. pose proof (mre_concat n o (map2 vmul X2 Y1) Ho (map2_vmul_wf n X2 Y1 W3 W2)) as HP.
  rewrite <- (dtrim_mean_perm t _ _ HP), <- (vmedian_perm _ _ HP).
  destruct (c =? "mean")%string.
  - destruct (dtrim_mean t (concat (map2 vmul X2 Y1))); [|split; [reflexivity|exact I]]. cbn [bind]. destruct (order =? 0)%nat; [split; [reflexivity|exact I]|]. split; [reflexivity|auto].
  - destruct (c =? "median")%string; [split; [reflexivity|auto]|split; [reflexivity|exact I]].
Qed.

Lemma inner_slice_order : forall n o X Y t, case_order n o -> wf n n X -> wf n n Y ->
  Permutation (inner_slice (mre o X) (mre o Y) t) (inner_slice (A := R) X Y t).
Proof.
  intros n o X Y t Ho HX HY. unfold inner_slice. cbv zeta. rewrite (wf_length _ _ _ (mre_wf n o X Ho)), (wf_length _ _ _ HX). rewrite (mre_vmul n) by auto.
  pose proof (mre_concat n o (map2 vmul X Y) Ho (map2_vmul_wf n X Y HX HY)) as HP. rewrite <- (sort_permutation _ _ HP). destruct (neqb t n0); [symmetry; exact HP|apply Permutation_refl].
Qed.
Lemma D_inner_order : forall n m o o' X Y t, case_order n o -> case_order m o' -> wf n n X -> wf m m Y -> (n = m -> o = o') -> D_inner (mre o X) (mre o' Y) t = D_inner (A := R) X Y t.
Proof.
  intros n m o o' X Y t Ho Ho' HX HY HE. unfold D_inner. rewrite (wf_length _ _ _ (mre_wf n o X Ho)), (wf_length _ _ _ (mre_wf m o' Y Ho')), (wf_length _ _ _ HX), (wf_length _ _ _ HY).
  destruct (Nat.eqb_spec n m) as [E|]; [|reflexivity]. cbn [negb]. rewrite <- (HE E). subst m. pose proof (inner_slice_order n o X Y t Ho HX HY) as HP. cbv zeta.
  rewrite (Permutation_length HP), (vsum_perm _ _ HP). reflexivity.
Qed.
Lemma U_inner_order : forall n m o o' X Y t, case_order n o -> case_order m o' -> wf n n X -> wf m m Y -> (n = m -> o = o') -> U_inner (mre o X) (mre o' Y) t = U_inner (A := R) X Y t.
Proof.
  intros n m o o' X Y t Ho Ho' HX HY HE. unfold U_inner. rewrite (wf_length _ _ _ (mre_wf n o X Ho)), (wf_length _ _ _ (mre_wf m o' Y Ho')), (wf_length _ _ _ HX), (wf_length _ _ _ HY).
  destruct (Nat.eqb_spec n m) as [E|]; [|reflexivity]. cbn [negb]. rewrite <- (HE E). subst m. pose proof (inner_slice_order n o X Y t Ho HX HY) as HP. cbv zeta.
  rewrite (Permutation_length HP), (vsum_perm _ _ HP). reflexivity.
Qed.

(** the row-major flattening of a matrix with reordered rows *)
Definition blocks (p : nat) (o : list nat) : list nat := flat_map (fun i => seq (i * p) p) o.
Lemma blocks_seq : forall n p, flat_map (fun i => seq (i * p) p) (seq 0 n) = seq 0 (n * p).
Proof.
  intros n p. induction n as [|n IH]; [reflexivity|].
  rewrite (seq_S n 0), flat_map_app, IH. cbn [flat_map]. rewrite app_nil_r. replace (S n * p)%nat with (n * p + p)%nat by lia. rewrite seq_app. reflexivity.
Qed.
Lemma blocks_order : forall n p o, case_order n o -> case_order (n * p) (blocks p o).
Proof. intros n p o Ho. unfold case_order, blocks. rewrite <- (blocks_seq n p). apply Permutation_flat_map, Ho. Qed.
Lemma reorder_app : forall {T} o1 o2 (l : list T), reorder (o1 ++ o2) l = (reorder o1 l ++ reorder o2 l)%list.
Proof. intros. unfold reorder. apply flat_map_app. Qed.
Lemma reorder_seq_slice : forall {T} p i (l : list T), (i + p <= length l)%nat -> reorder (seq i p) l = firstn p (skipn i l).
Proof.
  intros T p; induction p as [|p IH]; intros i l Hl; [reflexivity|]. cbn [seq]. change (reorder (i :: seq (S i) p) l) with ((match nth_error l i with Some x => [x] | None => [] end) ++ reorder (seq (S i) p) l)%list.
  rewrite IH by lia. destruct (nth_error l i) as [x|] eqn:E; [|apply nth_error_None in E; lia].
  assert (ES : skipn i l = x :: skipn (S i) l).
  { clear IH Hl. revert l E. induction i as [|i IHi]; intros [|a l] E; cbn in E; try discriminate; [injection E as ->; reflexivity|]. cbn [skipn]. rewrite (IHi l E). reflexivity. }
  rewrite ES. reflexivity.
Qed.
Lemma concat_slice : forall n p (X : list (list R)) i, wf n p X -> (i < n)%nat -> firstn p (skipn (i * p) (concat X)) = nth i X [].
Proof.
  intros n p X i [HL HF]. revert n HL i. induction X as [|r X IH]; intros n HL i Hi; [cbn in HL; lia|]. inversion HF as [|? ? Hr HF']; subst. cbn [concat].
  destruct i as [|i]; [cbn [Nat.mul skipn nth]; rewrite firstn_app, firstn_all2, Nat.sub_diag, firstn_O, app_nil_r by lia; reflexivity|].
  cbn [nth]. replace (S i * length r)%nat with (length r + i * length r)%nat by lia. rewrite skipn_app, skipn_all2 by lia. cbn [app]. replace (length r + i * length r - length r)%nat with (i * length r)%nat by lia.
  apply (IH HF' (length X) eq_refl). cbn in Hi. lia.
Qed.
Lemma concat_length : forall n p (X : list (list R)), wf n p X -> length (concat X) = (n * p)%nat.
Proof. intros n p X [HL HF]. subst n. induction X as [|r X IH]; [reflexivity|]. cbn [concat length]. inversion HF; subst. rewrite app_length, IH by auto. lia. Qed.
Lemma concat_reorder : forall n p o (X : list (list R)), wf n p X -> case_order n o -> concat (reorder o X) = reorder (blocks p o) (concat X).
Proof.
  intros n p o X HX Ho. assert (LX : length X = n) by (eapply wf_length; eauto). rewrite (reorder_nth n o X []) by auto. assert (HO : forall i, In i o -> (i < n)%nat) by (intros; eapply order_in; eauto).
  unfold blocks. clear Ho. induction o as [|i o IH]; [reflexivity|]. cbn [map concat flat_map]. rewrite reorder_app, IH by (intros; apply HO; right; auto). f_equal.
  assert (Hi : (i < n)%nat) by (apply HO; left; auto). rewrite reorder_seq_slice by (rewrite (concat_length n p X HX); nia). symmetry. apply (concat_slice n p); auto.
Qed.
Lemma flat_order : forall n o y, cases n y -> case_order n o -> exists m o', case_order m o' /\ length (flat (A := R) y) = m /\ flat (areorder o y) = reorder o' (flat y) /\ (n = m -> o = o').
Proof.
  intros n o [v|Y] Hy Ho; cbn [cases areorder flat] in *.
  - exists n, o. auto.
  - destruct Hy as [p HY]. exists (n * p)%nat, (blocks p o). split; [apply blocks_order; auto|]. split; [apply concat_length; auto|]. split; [eapply concat_reorder; eauto|].
    intros E. destruct n as [|n]; [apply Permutation_nil in Ho; subst o; reflexivity|]. assert (p = 1%nat) by nia. subst p. unfold blocks. clear. induction o as [|i o IH]; cbn; auto. rewrite Nat.mul_1_r. f_equal. exact IH.
Qed.
Lemma difference_divergence_order : forall n o X y c t bc, case_order n o -> length X = n -> cases n y ->
  difference_divergence (reorder o X) (areorder o y) c t bc = difference_divergence (A := R) X y c t bc.
Proof.
  intros n o X y c t bc Ho HX Hy. unfold difference_divergence. rewrite (dmc_order _ n) by (auto; apply euclid_sym).
  destruct (distance_matrix_centered euclid X c t bc) as [[D1 k1]|e] eqn:E1; [|reflexivity]. cbn [reorder_dc bind]. pose proof (dmc_wf _ n X D1 c t bc k1 HX E1) as W1.
  destruct (flat_order n o y Hy Ho) as (m & o' & Ho' & Lf & -> & HE). cbv zeta. rewrite <- (reorder_map (fun v => [v])). rewrite (dist_matrix_order _ m) by (auto; try apply euclid_sym; rewrite map_length; auto).
  set (DM := dist_matrix euclid (map (fun v => [v]) (flat y))). assert (WD : wf m m DM) by (unfold DM; pose proof (dist_matrix_wf euclid (map (fun v => [v]) (flat y))) as H; rewrite map_length, Lf in H; exact H).
  rewrite (mre_map m) by auto. rewrite (double_center_order m) by (auto; apply wf_mapmap; auto).
  destruct (double_center_flex (map (map _) DM) c t bc) as [[D2 k2]|e] eqn:E2; [|reflexivity]. cbn [reorder_dc bind fst]. assert (W2 : wf m m D2) by (eapply double_center_wf; [|exact E2]; apply wf_mapmap; auto).
  rewrite (D_inner_order n m o o'), (U_inner_order n m o o') by auto. reflexivity.
Qed.

(* ---------------- fit ------------------------------------------------ *)
Lemma alen_order : forall n o x, case_order n o -> cases n x -> alen (areorder o x) = n /\ alen x = n.
Proof.
  intros n o [v|X] Ho Hx; cbn [cases areorder alen] in *; [split; auto; apply (reorder_length n); auto|]. destruct Hx as [p HX]. assert (length X = n) by (eapply wf_length; eauto). split; auto. apply (reorder_length n); auto.
Qed.
Lemma acol_order : forall n o x, cases n x -> acol (areorder o x) = reorder o (acol (A := R) x) /\ length (acol x) = n.
Proof.
  intros n o [v|X] Hx; cbn [cases areorder acol] in *; [auto|]. destruct Hx as [p HX]. split; [apply reorder_col|]. rewrite col_length. eapply wf_length; eauto.
Qed.
Lemma arows_order : forall n o x, cases n x -> arows (areorder o x) = reorder o (arows (A := R) x) /\ length (arows x) = n.
Proof.
  intros n o [v|X] Hx; cbn [cases areorder arows] in *; [rewrite reorder_map, map_length; auto|]. destruct Hx as [p HX]. split; auto. eapply wf_length; eauto.
Qed.
Lemma arows_cases : forall n x, cases n x -> cases n (A2 (arows x)).
Proof.
  intros n [v|X] Hx; cbn [cases arows] in *; auto. exists 1%nat. split; [rewrite map_length; auto|]. apply Forall_map, Forall_forall. auto.
Qed.
Lemma prows_order : forall n o y, cases n y -> prows (areorder o y) = (match prows (A := R) y with Ok Y => Ok (reorder o Y) | Err e => Err e end) /\
  match prows y with Ok Y => length Y = n /\ y = A2 Y | Err _ => True end.
Proof. intros n o [v|Y] Hy; cbn [cases areorder prows] in *; auto. destruct Hy as [p HY]. split; auto. split; auto. eapply wf_length; eauto. Qed.
Definition kw_ok (n : nat) (kw : dkw R) : Prop :=
  (forall y, k_y kw = Some y -> cases n y) /\ (forall d, k_metric kw = Some d -> symmetric_metric d).
Lemma get_y_order : forall o (kw : dkw R), get_y (kw_reorder o kw) = match get_y kw with Ok y => Ok (areorder o y) | Err e => Err e end.
Proof. intros o kw. unfold get_y, kw_reorder. cbn [k_y]. destruct (k_y kw); reflexivity. Qed.
Lemma metric_sym : forall n kw, kw_ok n kw -> symmetric_metric (dflt (k_metric kw) euclid).
Proof. intros n kw [_ H]. destruct (k_metric kw) as [d|]; cbn [dflt]; [auto|apply euclid_sym]. Qed.
Ltac kwsimp := cbn [kw_reorder k_trim k_bias k_alpha k_calc k_order k_option k_fisher k_std k_metric].
Lemma fit_arithmetic_order : forall n o s mode order opt x kw, case_order n o -> cases n x -> kw_ok n kw ->
  fit_arithmetic s mode order opt (areorder o x) (kw_reorder o kw) = fit_arithmetic (A := R) s mode order opt x kw.
Proof.
  intros n o s mode order opt x kw Ho Hx Hk. unfold fit_arithmetic. kwsimp. destruct (alen_order n o x Ho Hx) as [-> ->]. destruct (acol_order n o x Hx) as [-> Lx]. cbv zeta.
  rewrite !(trim_mom_order n o (acol x) (acol x)) by auto. rewrite get_y_order.
  match goal with |- match ?a with _ => _ end = match ?a with _ => _ end => destruct a as [s1 [xm|e]]; [|reflexivity] end.
  destruct (mode =? "mom")%string; [reflexivity|]. unfold get_y. destruct Hk as [Hy _]. destruct (k_y kw) as [y|]; [|reflexivity]. specialize (Hy y eq_refl). cbn [step].
  destruct (alen_order n o y Ho Hy) as [-> ->]. destruct (acol_order n o y Hy) as [-> Ly]. rewrite !(trim_mom_order n o (acol x) (acol y)), !(trim_mom_order n o (acol y) (acol y)) by auto. reflexivity.
Qed.
Lemma fit_mdd_order : forall n o s mode x kw, case_order n o -> cases n x -> kw_ok n kw ->
  fit_mdd s mode (areorder o x) (kw_reorder o kw) = fit_mdd (A := R) s mode x kw.
Proof.
  intros n o s mode x kw Ho Hx Hk. pose proof (metric_sym n kw Hk) as Hm. unfold fit_mdd. kwsimp. rewrite get_y_order. unfold get_y. destruct Hk as [Hy _]. destruct (k_y kw) as [y|]; [|reflexivity]. specialize (Hy y eq_refl).
  cbn [step]. cbv zeta. destruct (alen_order n o x Ho Hx) as [-> ->]. destruct (alen_order n o y Ho Hy) as [-> ->]. destruct (arows_order n o x Hx) as [-> Lx]. destruct (prows_order n o y Hy) as [-> HP].
  destruct (n =? 0)%nat; [reflexivity|]. rewrite Nat.eqb_refl. cbn [negb]. destruct (mode =? "ballcov")%string.
  - destruct (prows y) as [Y|]; [|reflexivity]. cbn [bind]. destruct HP as [LY _]. rewrite (dmc_order _ n) by auto. destruct (distance_matrix_centered (dflt (k_metric kw) euclid) Y _ _ _) as [[D k]|]; reflexivity.
  - rewrite (difference_divergence_order n) by auto. destruct (difference_divergence (arows x) y _ _ _) as [dd|]; [|reflexivity]. cbn [step].
    destruct (mode =? "mdd")%string; [reflexivity|]. change (A2 (reorder o (arows x))) with (areorder o (A2 (arows x))). rewrite (difference_divergence_order n) by (auto using arows_cases).
    destruct (difference_divergence (arows x) (A2 (arows x)) _ _ _) as [xm|]; [|reflexivity]. cbn [step].
    destruct (prows y) as [Y|]; [|reflexivity]. cbn [bind]. destruct HP as [LY _]. rewrite (difference_divergence_order n) by auto. reflexivity.
Qed.
Lemma fit_fast_order : forall dc n o s mode x kw, dcor_order_free dc -> case_order n o -> cases n x -> kw_ok n kw ->
  fit_fast dc s mode (areorder o x) (kw_reorder o kw) = fit_fast (A := R) dc s mode x kw.
Proof.
  intros dc n o s mode x kw Hd Ho Hx [Hy _]. unfold fit_fast. kwsimp. cbv zeta. rewrite get_y_order. unfold get_y. destruct (arows_order n o x Hx) as [-> Lx]. pose proof (arows_cases n x Hx) as HA.
  change (A2 (reorder o (arows x))) with (areorder o (A2 (arows x))). set (xa := A2 (arows x)) in *.
  assert (EF : forall a b, cases n a -> cases n b -> (if dflt (k_bias kw) false then dc_u dc (areorder o a) (areorder o b) else dc_v dc (areorder o a) (areorder o b)) = (if dflt (k_bias kw) false then dc_u dc a b else dc_v dc a b)).
  { intros a b Ha Hb. destruct (Hd n o a b Ho Ha Hb) as [-> ->]. reflexivity. }
  rewrite (EF xa xa HA HA). match goal with |- match ?a with _ => _ end = match ?a with _ => _ end => destruct a as [s1 [xm|e]]; [|reflexivity] end.
  destruct (mode =? "mom")%string; [reflexivity|]. destruct (k_y kw) as [y|]; [|reflexivity]. specialize (Hy y eq_refl). cbn [step]. rewrite (EF xa y HA Hy), (EF y y Hy Hy). reflexivity.
Qed.
Lemma fit_distance_order : forall n o s mode order opt x kw, case_order n o -> cases n x -> kw_ok n kw ->
  fit_distance s mode order opt (areorder o x) (kw_reorder o kw) = fit_distance (A := R) s mode order opt x kw.
Proof.
  intros n o s mode order opt x kw Ho Hx Hk. pose proof (metric_sym n kw Hk) as Hm. unfold fit_distance. kwsimp. cbv zeta. rewrite get_y_order. unfold get_y. destruct Hk as [Hy _].
  destruct (arows_order n o x Hx) as [-> Lx]. rewrite (dmc_order _ n) by auto. destruct (alen_order n o x Ho Hx) as [-> ->].
  destruct (distance_matrix_centered (dflt (k_metric kw) euclid) (arows x) _ _ _) as [[D1 k1]|e] eqn:E1; [|reflexivity]. cbn [reorder_dc step]. pose proof (dmc_wf _ n _ _ _ _ _ _ Lx E1) as W1.
  set (tt0 := dflt (k_trim kw) n0). set (bc := dflt (k_bias kw) false).
  match goal with |- match ?a with _ => _ end = match ?b with _ => _ end => 
    assert (EP : a = match b with (s1, Ok (D, xm)) => (s1, Ok (mre o D, xm)) | (s1, Err e) => (s1, Err e) end /\ match b with (_, Ok (D, _)) => wf n n D | _ => True end) end.
  { destruct (mode =? "com")%string; [split; [reflexivity|exact W1]|].
    destruct (distance_moment_order n o true D1 D1 k1 (d_center s) tt0 bc order opt Ho W1 W1) as [EM WM]. rewrite EM.
    destruct (distance_moment true D1 D1 k1 (d_center s) tt0 bc order opt) as [[[a b] m]|e]; [|split; [reflexivity|exact I]]. cbn [reorder_dm step]. destruct WM as [Wa Wb].
    destruct (smem (d_mode s) _); [|split; [reflexivity|exact Wa]].
    destruct (distance_moment_order n o true a a k1 (d_center s) tt0 bc 2 opt Ho Wa Wa) as [EM2 WM2]. rewrite EM2.
    destruct (distance_moment true a a k1 (d_center s) tt0 bc 2 opt) as [[[a2 b2] m2]|e]; [|split; [reflexivity|exact I]]. cbn [reorder_dm step]. destruct WM2 as [Wa2 _]. split; [reflexivity|exact Wa2]. }
  destruct EP as [-> WP]. match goal with |- match (match ?b with _ => _ end) with _ => _ end = _ => destruct b as [s1 [[D xm]|e]]; [|reflexivity] end.
  destruct (mode =? "mom")%string; [reflexivity|]. destruct (k_y kw) as [y|]; [|reflexivity]. specialize (Hy y eq_refl). cbn [step].
  destruct (alen_order n o y Ho Hy) as [-> ->]. destruct (n =? 0)%nat; [reflexivity|]. destruct (negb (n =? n)%nat); [reflexivity|]. destruct (prows_order n o y Hy) as [-> HP].
  destruct (prows y) as [Y|]; [|reflexivity]. cbn [bind]. destruct HP as [LY _]. rewrite (dmc_order _ n) by auto.
  destruct (distance_matrix_centered (dflt (k_metric kw) euclid) Y _ _ _) as [[D2 k2]|e] eqn:E2; [|reflexivity]. cbn [reorder_dc step fst]. pose proof (dmc_wf _ n _ _ _ _ _ _ LY E2) as W2.
  destruct (distance_moment_order n o false D D2 (Z.of_nat n) (d_center s) tt0 bc order opt Ho WP W2) as [EM WM]. rewrite EM.
  destruct (distance_moment false D D2 (Z.of_nat n) (d_center s) tt0 bc order opt) as [[[a b] m]|e]; [|reflexivity]. cbn [reorder_dm step]. destruct WM as [Wa Wb].
  destruct (distance_moment_order n o true a a (Z.of_nat n) (d_center s) tt0 bc 2 opt Ho Wa Wa) as [EA _]. destruct (distance_moment_order n o true b b (Z.of_nat n) (d_center s) tt0 bc 2 opt Ho Wb Wb) as [EB _].
  destruct (distance_moment_order n o true b b (Z.of_nat n) (d_center s) tt0 bc order opt Ho Wb Wb) as [EC _]. rewrite EA, EB, EC.
  destruct (distance_moment true a a (Z.of_nat n) (d_center s) tt0 bc 2 opt) as [[[a1 a2] a3]|ea]; destruct (distance_moment true b b (Z.of_nat n) (d_center s) tt0 bc 2 opt) as [[[b1 b2] b3]|eb];
    destruct (distance_moment true b b (Z.of_nat n) (d_center s) tt0 bc order opt) as [[[c1 c2] c3]|ec]; reflexivity.
Qed.
Lemma dicomo_order_l : forall dc n o s x kw, dcor_order_free dc -> case_order n o -> cases n x -> (forall y, k_y kw = Some y -> cases n y) -> (forall d, k_metric kw = Some d -> symmetric_metric d) ->
  dicomo_fit dc s (areorder o x) (kw_reorder o kw) = dicomo_fit dc s x kw.
Proof.
  intros dc n o s x kw Hd Ho Hx Hy Hm. assert (Hk : kw_ok n kw) by (split; auto). unfold dicomo_fit. kwsimp. cbv zeta. destruct (alen_order n o x Ho Hx) as [-> ->].
  destruct (mode_of (d_mode s) (dflt (k_order kw) 2%nat)) as [[mode order] setc]. destruct (n =? 0)%nat; [reflexivity|].
  rewrite (fit_arithmetic_order n), (fit_mdd_order n), (fit_fast_order dc n), (fit_distance_order n) by auto. reflexivity.
Qed.
