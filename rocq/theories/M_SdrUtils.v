(** Model of src/direpack/sudire/_sudire_utils.py (objective functions, slicing,
    SIR, SAVE, DR, PHD, IHT) and of the constraint functions of
    src/direpack/utils/utils.py.  give_coords (sympy) is not modelled. *)

From Coq Require Import String List Arith ZArith Bool.
Import List. Import ListNotations.
From Verif Require Import Num Err Vec M_Utils M_Dicomo.

Section SdrUtils.
  Context {A : Type} `{Num A}.
  Open Scope num_scope.
  (** np.linalg.eigh: the eigenvalues and the matrix whose columns are the eigenvectors *)
  Variable eigh : mat A -> res (vec A * mat A).

  (** ** numpy *)
  (** np.matmul of two matrices *)
  Definition npmatmul (X Y : mat A) : res (mat A) := if (ncols X =? length Y)%nat then Ok (matmul X Y) else Err ValueError.
  Definition diag (v : vec A) : mat A :=
    map (fun i => map (fun j => if (i =? j)%nat then nth i v n0 else n0) (seq 0 (length v))) (seq 0 (length v)).
  Definition centred (v : vec A) : vec A := map (fun x => x -! vmean v) v.
  (** np.cov with rowvar=0, divisor n-1.  For one column numpy returns a number
      (a 0-d array) instead of a matrix; the callers treat that case. *)
  Definition cov2 (u v : vec A) : A := dot (centred u) (centred v) /! (nnat (length u) -! n1).
  Definition npcov (X : mat A) : mat A := map (fun c => map (fun d => cov2 c d) (cols X)) (cols X).
  (** x - x.mean(axis=0) *)
  Definition minus_mean (X : mat A) : mat A := map (fun r => vsub r (map vmean (cols X))) X.
  (** v.argsort() (the order of equal values, left open by numpy, is taken to be stable) *)
  Fixpoint insert_ix (a : A * nat) (l : list (A * nat)) : list (A * nat) :=
    match l with
    | [] => [a]
    | b :: l' => if fst a <=?! fst b then a :: l else b :: insert_ix a l'
    end.
  Definition argsort (v : vec A) : list nat := map snd (fold_right insert_ix [] (combine v (seq 0 (length v)))).
  (** X[:, idx] *)
  Definition take_cols (idx : list nat) (X : mat A) : mat A := map (fun r => map (fun j => nth j r n0) idx) X.
  (** np.reshape(b, (-1, h), order='F') and B.flatten(order='F') *)
  Definition unvec (h : nat) (b : vec A) : res (mat A) :=
    if (h =? 0)%nat then Err ValueError
    else if (length b mod h =? 0)%nat then
      let p := (length b / h)%nat in Ok (map (fun i => map (fun j => nth (j * p + i) b n0) (seq 0 h)) (seq 0 p))
    else Err ValueError.
  Definition flatF (B : mat A) : vec A := concat (cols B).

  (** _sudire_utils.py:151-158 matpower(A, alpha); [f] is the power *)
  Definition matpower (M : mat A) (f : A -> A) : res (mat A) :=
    bind (eigh (map2 (map2 (fun a b => (a +! b) /! nnat 2)) M (transpose M))) (fun '(vals, vecs) =>
    Ok (matmul (matmul vecs (diag (map f vals))) (transpose vecs))).
  (** matpower(np.cov(x, rowvar=0), -0.5); for one column eigh is given a 0-d
      array and raises LinAlgError *)
  Definition signsqrt (X : mat A) : res (mat A) :=
    if (ncols X =? 1)%nat then Err LinAlgError else matpower (npcov X) (fun v => npowr v (nlit (-1) 2)).

  (** :161-183 discretize(y, h).  np.floor(n/h) is the integer quotient; the
      labels 0, 1, ..., h are natural numbers. *)
  Definition discretize (y : vec A) (h : nat) : res (list nat) :=
    let n := length y in
    if (h =? 0)%nat then Err ZeroDivisionError else
    let m := (n / h)%nat in
    let yord := sort y in
    bind (mapM (fun i => match nth_error yord (i * m) with Some v => Ok v | None => Err IndexError end) (seq 1 (h - 1))) (fun divpt =>
    match divpt with
    | [] => Err IndexError
    | d0 :: _ =>
        Ok (map (fun v =>
          let l0 := if v <?! d0 then 1%nat else 0%nat in
          let l1 := if nth (h - 2) divpt n0 <=?! v then h else l0 in
          fold_left (fun l i => if (nth (i - 1) divpt n0 <=?! v) && (v <?! nth i divpt n0) then (i + 1)%nat else l) (seq 1 (h - 2)) l1) y)
    end).

  (** :221-227 (also :285-291, :356-362) the labels: the first remaining value
      is recorded and removed as long as np.var(yless) != 0.  An empty yless
      raises IndexError (np.var is NaN, yless[0] fails). *)
  Fixpoint slice_labels (fuel : nat) (yless : vec A) : res (vec A) :=
    match yless with
    | [] => Err IndexError
    | a :: _ =>
        match fuel with
        | O => Ok [a]
        | S k => if vvar yless =?! n0 then slice_labels k yless
                 else bind (slice_labels k (filter (fun v => negb (v =?! a)) yless)) (fun l => Ok (a :: l))
        end
    end.
  (** the response labels: discretised, or the response itself *)
  Definition response_labels (y : vec A) (n_slices : nat) (continuous : bool) : res (vec A) :=
    if continuous then bind (discretize y n_slices) (fun l => Ok (map nnat l)) else Ok y.
  (** ylabel[0], ..., ylabel[n_slices-1] *)
  Definition used_labels (labels : vec A) (n_slices : nat) : res (vec A) :=
    if (length labels <? n_slices)%nat then Err IndexError else Ok (firstn n_slices labels).
  Definition proportion (n : nat) (ydis : vec A) (l : A) : A := nnat (length (filter (fun v => v =?! l) ydis)) /! nnat n.
  (** xstd[ydis == l, :] *)
  Definition in_slice (ydis : vec A) (X : mat A) (l : A) : mat A := map snd (filter (fun vr => fst vr =?! l) (combine ydis X)).
  (** column means of a slice *)
  Definition slice_mean (S : mat A) : vec A := map vmean (cols S).

  (** the start of SIR, SAVE, DR (:206-227, :268-291, :341-362): the matrix
      signsqrt, the transformed data, the labels of the cases, the labels of the
      slices used.  [y] flattened; a wrong number of responses fails when the
      mask is applied (IndexError). *)
  Definition sliced (X : mat A) (y : vec A) (n_slices : nat) (continuous center scale : bool)
    : res (mat A * mat A * vec A * vec A) :=
    bind (signsqrt X) (fun sg =>
    let Xc := if center then minus_mean X else X in
    bind (if scale then npmatmul Xc sg else Ok Xc) (fun Xs =>
    bind (response_labels y n_slices continuous) (fun ydis =>
    bind (slice_labels (length X) ydis) (fun labels =>
    bind (used_labels labels n_slices) (fun used =>
    if negb (length ydis =? length X)%nat && (0 <? n_slices)%nat then Err IndexError
    else Ok (sg, Xs, ydis, used)))))).

  (** :238-245 (also :311-318, :406-413, :446-454, :494-501): the d leading eigenvectors, back-transformed if scaled *)
  Definition leading (M : mat A) (d : nat) : res (mat A) :=
    bind (eigh M) (fun '(vals, vecs) => Ok (take_cols (firstn d (rev (argsort vals))) vecs)).
  Definition back (scale : bool) (sg : mat A) (V : mat A) : res (mat A) := if scale then npmatmul sg V else Ok V.

  (** :228-237 exy' diag(prob) exy *)
  Definition sir_kernel (n : nat) (Xs : mat A) (ydis used : vec A) : mat A :=
    let prob := map (proportion n ydis) used in
    let exy := map (fun l => slice_mean (in_slice ydis Xs l)) used in
    matmul (matmul (transpose exy) (diag prob)) exy.
  (** :186-245 SIR; np.vstack of no slices raises ValueError *)
  Definition SIR (X : mat A) (y : vec A) (n_slices d : nat) (continuous center scale : bool) : res (mat A) :=
    bind (sliced X y n_slices continuous center scale) (fun '(sg, Xs, ydis, used) =>
    if (n_slices =? 0)%nat then Err ValueError else
    bind (leading (sir_kernel (length X) Xs ydis used) d) (back scale sg)).

  (** the covariance of a slice, the identity if it has fewer than two cases (:296-303) *)
  Definition slice_cov (p : nat) (S : mat A) : mat A := if (1 <? length S)%nat then npcov S else identity p.
  Definition zero_mat (p : nat) : mat A := repeat (vzeros p) p.
  (** :305-309 *)
  Definition save_kernel (n p : nat) (Xs : mat A) (ydis used : vec A) : mat A :=
    fold_left (fun M l => let D := msub (slice_cov p (in_slice ydis Xs l)) (identity p) in madd M (mscale (proportion n ydis l) (matmul D D)))
      used (zero_mat p).
  (** :248-318 SAVE *)
  Definition SAVE (X : mat A) (y : vec A) (n_slices d : nat) (continuous center scale : bool) : res (mat A) :=
    bind (sliced X y n_slices continuous center scale) (fun '(sg, Xs, ydis, used) =>
    bind (leading (save_kernel (length X) (ncols X) Xs ydis used) d) (back scale sg)).

  (** :366-405 *)
  Definition trace (M : mat A) : A := vsum (map (fun i => mget M i i) (seq 0 (length M))).
  Definition dr_kernel (n p : nat) (Xs : mat A) (ydis used : vec A) : mat A :=
    let mat1 := fold_left (fun M l => let S := in_slice ydis Xs l in let e := slice_mean S in
                  let V := madd (slice_cov p S) (outer e e) in madd M (mscale (proportion n ydis l) (matmul V V))) used (zero_mat p) in
    let mat2 := fold_left (fun M l => let e := slice_mean (in_slice ydis Xs l) in madd M (mscale (proportion n ydis l) (outer e e))) used (zero_mat p) in
    msub (madd (madd (mscale (nnat 2) mat1) (mscale (nnat 2) (matmul mat2 mat2))) (mscale (nnat 2 *! trace mat2) mat2)) (mscale (nnat 2) (identity p)).
  (** :321-413 DR *)
  Definition DR (X : mat A) (y : vec A) (n_slices d : nat) (continuous center scale : bool) : res (mat A) :=
    bind (sliced X y n_slices continuous center scale) (fun '(sg, Xs, ydis, used) =>
    if (n_slices =? 0)%nat then Err ValueError else
    bind (leading (dr_kernel (length X) (ncols X) Xs ydis used) d) (back scale sg)).

  (** the start of PHD and IHT (:435-442, :475-485) *)
  Definition standardised (X : mat A) (center scale : bool) : res (mat A * mat A) :=
    bind (signsqrt X) (fun sg =>
    let Xc := if center then minus_mean X else X in
    bind (if scale then npmatmul Xc sg else Ok Xc) (fun Xs => Ok (sg, Xs))).
  (** :444-445 np.multiply(x, yc).T @ x / n *)
  Definition phd_kernel (Xs : mat A) (y : vec A) : mat A :=
    let yx := map2 (fun r b => map (fun a => a *! b) r) Xs (centred y) in
    map (map (fun v => v /! nnat (length Xs))) (matmul (transpose yx) Xs).
  (** :416-454 PHD.  A response of the wrong length does not broadcast (ValueError;
      length 1 is not modelled). *)
  Definition PHD (X : mat A) (y : vec A) (d : nat) (center scale : bool) : res (mat A) :=
    bind (standardised X center scale) (fun '(sg, Xs) =>
    if negb (length y =? length X)%nat then Err ValueError else
    bind (leading (phd_kernel Xs y) d) (back scale sg)).

  (** :487-491 the columns covxy, covx covxy, covx^2 covxy, ... *)
  Definition iht_columns (Xs : mat A) (y : vec A) : res (list (vec A)) :=
    let covxy := map (fun c => cov2 c y) (cols Xs) in
    bind (mapM (fun i => bind (matpower (npcov Xs) (fun v => npow v i)) (fun M => Ok (matvec M covxy))) (seq 1 (ncols Xs - 1))) (fun l =>
    Ok (covxy :: l)).
  (** :457-501 IHT *)
  Definition IHT (X : mat A) (y : vec A) (d : nat) (center scale : bool) : res (mat A) :=
    bind (standardised X center scale) (fun '(sg, Xs) =>
    if negb (length y =? length X)%nat then Err ValueError else
    bind (iht_columns Xs y) (fun cs =>
    let m := of_cols (ncols Xs) cs in
    bind (leading (matmul m (transpose m)) d) (back scale sg))).

  (** utils.py:31-39 const_xscale(beta, X, h, i, j).  For one column np.cov is
      0-d and np.matmul raises ValueError. *)
  Definition const_xscale (beta : vec A) (X : mat A) (h i j : nat) : res A :=
    bind (unvec h beta) (fun B =>
    if (ncols X =? 1)%nat then Err ValueError else
    if negb (length B =? ncols X)%nat then Err ValueError else
    if negb ((i <? h)%nat && (j <? h)%nat) then Err IndexError else
    Ok (mget (msub (matmul (matmul (transpose B) (npcov X)) B) (identity h)) i j)).
  (** utils.py:42-50 const_zscale(beta, X, h, i, j) *)
  Definition const_zscale (beta : vec A) (X : mat A) (h i j : nat) : res A :=
    bind (unvec h beta) (fun B =>
    if negb (length B =? ncols X)%nat then Err ValueError else
    if negb ((i <? h)%nat && (j <? h)%nat) then Err IndexError else
    Ok (mget (msub (matmul (matmul (transpose B) (identity (ncols X))) B) (identity h)) i j)).

  (** optimizer_arguments (sudire.py:485-497); N2 is not used by the objective
      functions and is_distance_mat=True is not modelled *)
  Record sargs : Type := mk_sargs { sg_X : mat A; sg_y : vec A; sg_h : nat; sg_trim : A; sg_center : string; sg_metric : list A -> list A -> A; sg_bias : bool }.

  (** _sudire_utils.py:65-113 dcov_trim (biascorr is not used) *)
  Definition dcov_trim (beta : vec A) (a : sargs) : res A :=
    bind (unvec (sg_h a) beta) (fun B =>
    bind (npmatmul (sg_X a) B) (fun XB =>
    bind (distance_matrix_centered (sg_metric a) XB (sg_center a) (sg_trim a) false) (fun '(dmx, nn) =>
    bind (distance_matrix_centered (sg_metric a) (map (fun v => [v]) (sg_y a)) (sg_center a) (sg_trim a) false) (fun '(dmy, _) =>
    bind (distance_moment false dmx dmy nn (sg_center a) (sg_trim a) false 2 0) (fun '(_, _, m) =>
    Ok (nZ (-10) *! m)))))).
  (** _sudire_utils.py:21-62 mdd_trim (dmetric is not used) *)
  Definition mdd_trim (beta : vec A) (a : sargs) : res A :=
    bind (unvec (sg_h a) beta) (fun B =>
    bind (npmatmul (sg_X a) B) (fun XB =>
    bind (difference_divergence XB (A1 (sg_y a)) (sg_center a) (sg_trim a) (sg_bias a)) (fun v =>
    Ok (nZ (-10) *! nsqrt v)))).
End SdrUtils.
Arguments sargs : clear implicits.
Arguments mk_sargs {A}. Arguments sg_X {A}. Arguments sg_y {A}. Arguments sg_h {A}. Arguments sg_trim {A}. Arguments sg_center {A}. Arguments sg_metric {A}. Arguments sg_bias {A}.
