(** Specifications for projection pursuit (ppdire). *)

From Coq Require Import Reals List Arith ZArith Bool.
Import ListNotations.
From Verif Require Import Num Err Vec M_Utils M_Dicomo M_Ppdire S_Stats S_Regress.
Open Scope R_scope.

(** np.cos, np.sin, np.arcsin, np.arccos on the reals *)
Definition trigR : trig R := mk_trig cos sin asin acos.

(** [m] is what the grid search compares for the sample [v]: the index of the
    one-dimensional sample, squared if square_pi *)
Definition sample_value (most : arr R -> dkw R -> res R) (kw : dkw R) (sq : bool) (v : list R) (m : R) : Prop :=
  exists u, most (A1 v) kw = Ok u /\ m = if sq then u * u else u.
(** a x_1 + b x_2 for the rows (x_1, x_2) of X *)
Definition combine2 (X : list (list R)) (a b : R) : list R := map (fun r => a * nth 0 r 0 + b * nth 1 r 0) X.

(** the angles of the two grids *)
Definition angle1 (ndir k : nat) : R := INR k * PI / INR ndir.
Definition angle2 (ndir k : nat) : R := - PI / 2 + INR k * PI / INR (ndir - 1).
(** the directions of the second grid are normalised for a current weight [q] *)
Definition norm2 (q hi th : R) : R := sqrt (1 + 2 * ((hi * cos th) * (hi * sin th)) * q).

(** the first of the directions [dir 0], ..., [dir (n-1)] with the largest value *)
Definition first_best (n : nat) (dir : nat -> R * R) (value : R -> R -> R -> Prop) (a b m : R) : Prop :=
  exists k, (k < n)%nat /\ dir k = (a, b) /\ value a b m /\
    forall i, (i < n)%nat -> exists v, value (fst (dir i)) (snd (dir i)) v /\ v <= m /\ ((i < k)%nat -> v < m).

(** the index does not distinguish a vector from a one-column matrix *)
Definition shape_blind (most : arr R -> dkw R -> res R) : Prop :=
  forall v kw, most (A2 (map (fun a => [a]) v)) kw = most (A1 v) kw.

(** the arguments of the grid planes as ppdire.fit passes them: range (-1,1),
    first the tuple, then the matrix *)
Definition grid_args (g g2 : gargs R) : Prop :=
  ga_range g = (-1, 1) /\ ga_alphamat g = AmTuple /\ g2 = mk_gargs (ga_ndir g) (-1, 1) AmArray (ga_square g) (stops trigR (-1, 1)) (ga_kw g).

(** what is needed of scipy.linalg.pinv: for a square matrix a square matrix
    with M N M = M (first Penrose equation) *)
Definition penrose (pinv : list (list R) -> res (list (list R))) : Prop :=
  forall k M N, is_matrix k k M -> pinv M = Ok N ->
    is_matrix k k N /\
    forall i j, (i < k)%nat -> (j < k)%nat ->
      sum_of (map (fun b => sum_of (map (fun a => cell M i a * cell N a b) (seq 0 k)) * cell M b j) (seq 0 k)) = cell M i j.

(** the values of the response passed to fit *)
Definition has_response (y : yarg R) (v : list R) : Prop :=
  exists a, (y = YPos a \/ y = YKw a) /\ (a = A1 v \/ a = A2 (map (fun x => [x]) v)).

(** shapes of the economy singular value decomposition A = V diag(s) U *)
Definition economy_shapes (svd : list (list R) -> res (list (list R) * list R * list (list R))) : Prop :=
  forall a b M V s U, is_matrix a b M -> svd M = Ok (V, s, U) ->
    is_matrix a (Nat.min a b) V /\ length s = Nat.min a b /\ is_matrix (Nat.min a b) b U.

(** neither whitening nor compression takes place *)
Definition direct_fit (prm : pparams R) (n p : nat) : Prop := pp_whiten prm = false /\ (pp_compress prm = false \/ (p <= n)%nat).

(** the first [h] columns are not zero *)
Definition nonzero_cols (T : list (list R)) (h : nat) : Prop := forall i, (i < h)%nat -> sqlen (column i T) <> 0.

(** numbers of directions for which no angle of the second grid is +-45 degrees *)
Definition good_ndir (ndir : nat) : Prop := ndir = 1%nat \/ ((ndir - 1) mod 4 <> 0)%nat.

(** unit weights [a] with their projection [z] *)
Definition unit_projection (E : list (list R)) (p : nat) (z a : list R) : Prop :=
  length a = p /\ sqlen a = 1 /\ z = map (fun r => inner r a) E.
