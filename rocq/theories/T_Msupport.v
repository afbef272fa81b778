(** Property theorems C25-C31 and C84-C87: weight functions, broken stick,
    helper functions, robust loss and plots. *)

From Coq Require Import Reals QArith List Arith ZArith Bool Lia Lra Permutation Sorted.
Import ListNotations.
From Verif Require Import Num Err Vec VecR OrdR L_Mat S_Stats S_Weights S_Utils L_Stats M_Utils M_Msupport M_Plot
  L_Lin L_Missing L_Msupport L_Utils.
Open Scope R_scope.

(* ------------------------------------------------------------------ *)
(** C25 *)

Theorem C25_weights : forall f c b r x, cutoffs_ok f c b r -> nonneg x ->
  length (mweights f c b r x) = length x /\
  (forall i, (i < length x)%nat -> 0 <= nth i (mweights f c b r x) 0 <= 1) /\
  (forall i j, (i < length x)%nat -> (j < length x)%nat -> nth i x 0 <= nth j x 0 ->
     nth j (mweights f c b r x) 0 <= nth i (mweights f c b r x) 0) /\
  (forall i, (i < length x)%nat -> f <> MFair -> nth i x 0 <= c -> nth i (mweights f c b r x) 0 = 1) /\
  (forall i, (i < length x)%nat -> f = MHampel -> r < nth i x 0 -> nth i (mweights f c b r x) 0 = 0).
Proof. exact C25_weights_l. Qed.
Print Assumptions C25_weights.

Example C25_case : cutoffs_ok MHampel 2 3 4 /\ nonneg [1; 5; 7/2] /\
  map Qred (mweights MHampel 2%Q 3%Q 4%Q [1; 5; 7#2; 5#2]%Q) = [1; 0; 2#7; 4#5]%Q.
Proof.
  split; [cbn; lra|]. split; [repeat constructor; lra|]. vm_compute. reflexivity.
Qed.

(** a negative cut-off (the chi-square quantile transformed from a probability
    below one half is accepted by the parameter checks) gives negative weights *)
Theorem C25_negative_cutoff : forall c x i, c < 0 -> (i < length x)%nat -> 0 < nth i x 0 ->
  nth i (mweights MHuber c 0 0 x) 0 < 0.
Proof. exact C25_negative_cutoff_l. Qed.
Print Assumptions C25_negative_cutoff.
Example C25_case2 : map Qred (mweights MHuber (-1)%Q 0%Q 0%Q [2; 4]%Q) = [-1#2; -1#4]%Q.
Proof. vm_compute. reflexivity. Qed.

(* ------------------------------------------------------------------ *)
(** C26 *)

Theorem C26_textbook : forall f c b r x, cutoffs_ok f c b r -> nonneg x ->
  mweights f c b r x = map (textbook f c b r) x.
Proof. exact C26_textbook_l. Qed.
Print Assumptions C26_textbook.

(** below 1: every inner point gets weight c *)
Theorem C26_small_cutoff : forall f c b r x i, (f = MHuber \/ f = MHampel) -> 0 < c < 1 -> 1 <= b < r -> (i < length x)%nat ->
  nth i x 0 <= c -> nth i (mweights f c b r x) 0 = c.
Proof. exact C26_small_l. Qed.
Print Assumptions C26_small_cutoff.

(** negative input is never down-weighted *)
Theorem C26_negative_input : forall f c b r x i, (f = MHuber \/ f = MHampel) -> cutoffs_ok f c b r -> (i < length x)%nat ->
  nth i x 0 <= 0 -> nth i (mweights f c b r x) 0 = 1.
Proof. exact C26_negative_l. Qed.
Print Assumptions C26_negative_input.

(** the textbook Huber weight at 1/4 with cut-off 1/2 is 1; the code gives 1/2.
    Moreover the weight increases from 1/4 to 3/4. *)
Theorem C26_textbook_refuted : exists c x, 0 < c /\ 0 <= x /\ huber_weight c x <> nth 0 (mweights MHuber c 1 2 [x]) 0 /\
  exists x', x < x' /\ nth 0 (mweights MHuber c 1 2 [x]) 0 < nth 0 (mweights MHuber c 1 2 [x']) 0.
Proof.
  exists (1/2), (1/4). split; [lra|]. split; [lra|].
  rewrite (C26_small_l MHuber (1/2) 1 2 [1/4] 0 (or_introl eq_refl)); [|lra|lra|cbn; lia|cbn; lra].
  split; [unfold huber_weight; destruct (Rle_dec (1/4) (1/2)); lra|].
  exists (3/4). split; [lra|]. cbn -[Rltb Rleb Rdiv]. unfold Rleb. destruct (Rle_dec (3/4) (1/2)); [lra|].
  unfold Rltb. destruct (Rlt_dec (1/2) (3/4)); [|lra]. rewrite Rabs_right by lra. lra.
Qed.
Print Assumptions C26_textbook_refuted.

(* ------------------------------------------------------------------ *)
(** C27 *)

Theorem C27_pointwise : forall f c b r (x x' : list R) i i', (i < length x)%nat -> (i' < length x')%nat -> nth i x 0 = nth i' x' 0 ->
  nth i (mweights f c b r x) 0 = nth i' (mweights f c b r x') 0.
Proof. exact C27_pointwise_l. Qed.
Print Assumptions C27_pointwise.

Example C27_case : map Qred (mweights MHampel 2%Q 3%Q 4%Q [1; 5; 5#2]%Q) = [1; 0; 4#5]%Q /\ map Qred (mweights MHampel 2%Q 3%Q 4%Q [5#2]%Q) = [4#5]%Q.
Proof. split; vm_compute; reflexivity. Qed.

(* ------------------------------------------------------------------ *)
(** C28 *)

Theorem C28_brokenstick : forall n, (1 <= n)%nat ->
  length (brokenstick (A:=R) n) = n /\ sum_of (brokenstick n) = 1 /\
  (forall i, (i < n)%nat -> 0 < nth i (brokenstick (A:=R) n) 0) /\
  (forall i j, (i < j)%nat -> (j < n)%nat -> nth j (brokenstick (A:=R) n) 0 < nth i (brokenstick (A:=R) n) 0) /\
  (forall i, (i < n)%nat -> nth i (brokenstick (A:=R) n) 0 = sum_of (map (fun k => 1 / INR k) (seq (S i) (n - i))) / INR n).
Proof. exact C28_l. Qed.
Print Assumptions C28_brokenstick.

Example C28_case : map Qred (brokenstick (A:=Q) 3) = [11#18; 5#18; 1#9]%Q.
Proof. vm_compute. reflexivity. Qed.

(* ------------------------------------------------------------------ *)
(** C29 *)

Theorem C29_starting_components : forall spc : list R, spc <> [] -> sum_of spc = 1 ->
  exists k, relcomp spc = Ok k /\ (1 <= k)%nat /\ (k <= Nat.max (length spc - 1) 1)%nat.
Proof. exact C29_l. Qed.
Print Assumptions C29_starting_components.

Example C29_case : relcomp [7#10; 28#100; 2#100]%Q = Ok 2%nat /\ relcomp [1#3; 1#3; 1#3]%Q = Ok 1%nat.
Proof. split; vm_compute; reflexivity. Qed.

(* ------------------------------------------------------------------ *)
(** C30.  [XR]: reals with NaN (and infinities, excluded by [ok_entry]). *)

Theorem C30_nandot : forall n p X y, is_xmatrix n p X -> entries_ok X -> (1 <= n)%nat -> length y = p -> Forall ok_entry y ->
  exists z, nandot X y = Ok z /\ length z = n /\
    forall i, (i < n)%nat -> nth i z NaN = Fin (sum_of (observed_products (nth i X []) y)).
Proof. exact C30_nandot_l. Qed.
Print Assumptions C30_nandot.

(** one column: the product; two or more columns: the transpose of the product *)
Theorem C30_nanmatdot : forall n m q X Y, is_xmatrix n m X -> is_xmatrix m q Y -> entries_ok X -> entries_ok Y ->
  (1 <= n)%nat -> (1 <= m)%nat -> (1 <= q)%nat ->
  exists Z, nanmatdot X Y = Ok Z /\
    (q = 1%nat -> is_xmatrix n 1 Z /\
       forall i, (i < n)%nat -> nth 0 (nth i Z []) NaN = Fin (sum_of (observed_products (nth i X []) (xcolumn 0 Y)))) /\
    ((2 <= q)%nat -> is_xmatrix q n Z /\
       forall i j, (i < n)%nat -> (j < q)%nat ->
         nth i (nth j Z []) NaN = Fin (sum_of (observed_products (nth i X []) (xcolumn j Y)))).
Proof. exact C30_nanmatdot_l. Qed.
Print Assumptions C30_nanmatdot.

Theorem C30_complete : forall n m q X Y, is_matrix n m X -> is_matrix m q Y -> (1 <= n)%nat -> (1 <= m)%nat -> (2 <= q)%nat ->
  exists Z, nanmatdot X Y = Ok Z /\ is_matrix q n Z /\
    forall i j, (i < n)%nat -> (j < q)%nat -> cell Z j i = inner (nth i X []) (column j Y).
Proof. exact C30_complete_l. Qed.
Print Assumptions C30_complete.

Theorem C30_product_refuted : exists X Y Z : list (list Q), nanmatdot X Y = Ok Z /\ length Z <> length X.
Proof. exists [[1; 2]; [3; 4]; [5; 6]]%Q, [[1; 2]; [3; 4]]%Q. eexists. split; [vm_compute; reflexivity|]. vm_compute. discriminate. Qed.
Print Assumptions C30_product_refuted.

Example C30_case : is_xmatrix 2 2 [[Fin 1; NaN]; [Fin 2; Fin 3]] /\ entries_ok [[Fin 1; NaN]; [Fin 2; Fin 3]] /\
  observed_products [Fin 1; NaN] [Fin 4; Fin 5] = [1 * 4].
Proof. split; [split; [reflexivity|repeat constructor]|]. split; [repeat constructor|reflexivity]. Qed.

(* ------------------------------------------------------------------ *)
(** C31 *)

Theorem C31_check_input : forall x : arr R,
  (forall n p X, x = A2 X -> is_matrix n p X -> (2 <= n)%nat -> check_input x = X) /\
  (forall v, (x = A1 v \/ x = A2 [v]) -> (1 <= length v)%nat ->
     is_matrix (length v) 1 (check_input x) /\ forall i, (i < length v)%nat -> cell (check_input x) i 0 = nth i v 0) /\
  check_input (A2 (check_input x)) = check_input x.
Proof. exact C31_check_l. Qed.
Print Assumptions C31_check_input.

Theorem C31_predict_check_input : forall x : arr R,
  (forall v, x = A1 v -> predict_check_input x = (1%nat, length v, [v])) /\
  (forall n p X, x = A2 X -> is_matrix n p X -> (1 <= n)%nat -> predict_check_input x = (n, p, X)).
Proof. exact C31_predict_l. Qed.
Print Assumptions C31_predict_check_input.

Example C31_case : check_input (A2 [[1; 2; 3]]%Q) = [[1]; [2]; [3]]%Q /\ check_input (A1 [1; 2]%Q) = [[1]; [2]]%Q.
Proof. split; reflexivity. Qed.

(* ------------------------------------------------------------------ *)
(** C84 *)

Theorem C84_fair_symmetric : forall c b r (y yp : list R), length y = length yp ->
  robust_loss MFair c b r (map Ropp y) (map Ropp yp) = robust_loss MFair c b r y yp.
Proof. exact C84_fair_l. Qed.
Print Assumptions C84_fair_symmetric.

(** Huber and Hampel: only positive errors are down-weighted *)
Theorem C84_onesided : forall f c b r (y yp : list R), (f = MHuber \/ f = MHampel) -> cutoffs_ok f c b r ->
  let e := vdiff y yp in
  let w := map (fun x => if Rle_dec x 0 then 1 else textbook f c b r x) e in
  robust_loss f c b r y yp = sum_of (map (fun i => nth i e 0 * nth i e 0 * nth i w 0) (seq 0 (length e))) / sum_of w.
Proof. exact C84_onesided_l. Qed.
Print Assumptions C84_onesided.

Theorem C84_symmetric_refuted : exists (c : Q) (y yp : list Q),
  ~ (robust_loss MHuber c 0%Q 0%Q (map Qopp y) (map Qopp yp) == robust_loss MHuber c 0%Q 0%Q y yp)%Q.
Proof. exists 2%Q, [10; 0]%Q, [0; 1]%Q. vm_compute. discriminate. Qed.
Print Assumptions C84_symmetric_refuted.

(* ------------------------------------------------------------------ *)
(** C85 *)

Theorem C85_trichotomy : forall (w : list R) i, (i < length w)%nat -> 0 <= nth i w 0 <= 1 ->
  (In i (regular_cases w) /\ ~ In i (moderate_outliers w) /\ ~ In i (harsh_outliers w) /\ nth i w 0 = 1) \/
  (~ In i (regular_cases w) /\ In i (moderate_outliers w) /\ ~ In i (harsh_outliers w) /\ 0 < nth i w 0 < 1) \/
  (~ In i (regular_cases w) /\ ~ In i (moderate_outliers w) /\ In i (harsh_outliers w) /\ nth i w 0 = 0).
Proof. exact C85_l. Qed.
Print Assumptions C85_trichotomy.

Theorem C85_in_range : forall (w : list R) i, In i (regular_cases w) \/ In i (moderate_outliers w) \/ In i (harsh_outliers w) -> (i < length w)%nat.
Proof. exact C85_range_l. Qed.
Print Assumptions C85_in_range.

Example C85_case : regular_cases [1; 1#2; 0; 1]%Q = [0; 3]%nat /\ moderate_outliers [1; 1#2; 0; 1]%Q = [1]%nat /\
  harsh_outliers [1; 1#2; 0; 1]%Q = [2]%nat.
Proof. repeat split. Qed.

(* ------------------------------------------------------------------ *)
(** C86 *)

Theorem C86_labels : forall {N P : Type} (names : list N) (points : list P) dn dp, length names = length points ->
  length (annotations names points) = (length names - 1)%nat /\
  forall i, (i < length names - 1)%nat -> nth i (annotations names points) (dn, dp) = (nth i names dn, nth i points dp).
Proof. exact @C86_l. Qed.
Print Assumptions C86_labels.

Theorem C86_all_labelled_refuted : exists (names : list nat) (points : list (nat * nat)),
  length names = length points /\ annotations names points = [].
Proof. exists [7]%nat, [(1, 2)]%nat. split; reflexivity. Qed.
Print Assumptions C86_all_labelled_refuted.

(** in the case-weight bar chart every label stands one bar too far to the right *)
Theorem C86_shifted : forall {N : Type} (names : list N) x, In x (caseweight_labels names) ->
  exists i, (i < length names)%nat /\ nth_error names i = Some (fst x) /\ snd x = S (bar_position i).
Proof. exact @C86_caseweights_l. Qed.
Print Assumptions C86_shifted.

Example C86_case : caseweight_labels [10; 20; 30]%nat = [(10, 2); (20, 3)]%nat.
Proof. reflexivity. Qed.

(* ------------------------------------------------------------------ *)
(** C87: coefficients 3, 1, 2, two bars: the bar of height 3 belongs to
    variable 0 but is labelled 2. *)

Theorem C87_labels_refuted : exists (left : nat) (b : list Q) k,
  let (bars, labels) := coeff_bars left b in
  (k < length bars)%nat /\ length bars = length labels /\ ~ (nth k bars 0 == nth (nth k labels O) b 0)%Q.
Proof. exists 1%nat, [3; 1; 2]%Q, 1%nat. vm_compute. repeat split; [lia|]. discriminate. Qed.
Print Assumptions C87_labels_refuted.
