(** Vectors, matrices and order statistics over any [Num].

    A vector (1-d ndarray) is a list; a matrix (2-d ndarray) is the list of its
    rows.  Shapes are explicit where the code inspects them. *)

From Coq Require Import List Arith ZArith Bool.
Import ListNotations.
From Verif Require Import Num Err.

Notation vec A := (list A) (only parsing).
Notation mat A := (list (list A)) (only parsing).

Section Vec.
  Context {A : Type} `{Num A}.
  Open Scope num_scope.

  Fixpoint map2 {B C D : Type} (f : B -> C -> D) (u : list B) (v : list C) : list D :=
    match u, v with
    | x :: u', y :: v' => f x y :: map2 f u' v'
    | _, _ => []
    end.

  (** np.sum *)
  Definition vsum (v : vec A) : A := fold_right nadd n0 v.
  (** np.dot of two vectors *)
  Definition dot (u v : vec A) : A := vsum (map2 nmul u v).
  Definition vadd := map2 (@nadd A _).
  Definition vsub := map2 (@nsub A _).
  Definition vmul := map2 (@nmul A _).
  Definition vdiv := map2 (@ndiv A _).
  Definition vscale (a : A) (v : vec A) : vec A := map (nmul a) v.
  Definition vsqnorm (v : vec A) : A := vsum (map nsqr v).
  (** np.linalg.norm of a vector (or "fro" of a one-column matrix) *)
  Definition vnorm (v : vec A) : A := nsqrt (vsqnorm v).
  Definition vzeros (k : nat) : vec A := repeat n0 k.

  (** np.mean *)
  Definition vmean (v : vec A) : A := vsum v /! nnat (length v).
  (** np.var (population variance) *)
  Definition vvar (v : vec A) : A :=
    vmean (map (fun x => nsqr (x -! vmean v)) v).

  (** maximum of a vector as Python's [max] (first element as start) *)
  Definition vmaxl (v : vec A) : A :=
    match v with [] => n0 | x :: v' => fold_left nmax v' x end.

  (** ** Sorting and order statistics *)
  Fixpoint insert (x : A) (l : vec A) : vec A :=
    match l with
    | [] => [x]
    | y :: l' => if x <=?! y then x :: l else y :: insert x l'
    end.
  (** np.sort of a vector without NaN *)
  Definition sort (l : vec A) : vec A := fold_right insert [] l.

  (** np.median of a vector: middle order statistic, or the mean of the two
      middle ones; NaN (0/0) for an empty vector *)
  Definition vmedian (l : vec A) : A :=
    let s := sort l in
    let n := length l in
    match l with
    | [] => n0 /! n0
    | _ => if Nat.even n
           then (nth (n / 2 - 1) s n0 +! nth (n / 2) s n0) /! nnat 2
           else nth (n / 2) s n0
    end.

  (** scipy.stats.trim_mean of a vector: drop int(t*n) values at both ends *)
  Definition trim_mean1 (t : A) (l : vec A) : res A :=
    let n := length l in
    let lowercut := Z.to_nat (nfloor (t *! nnat n)) in
    let uppercut := (Z.of_nat n - Z.of_nat lowercut)%Z in
    if (uppercut <? Z.of_nat lowercut)%Z then Err ValueError
    else Ok (vmean (firstn (Z.to_nat uppercut - lowercut) (skipn lowercut (sort l)))).

  (** ** Matrices as lists of rows *)
  Definition ncols (X : mat A) : nat := length (hd [] X).
  Definition col (j : nat) (X : mat A) : vec A := map (fun r => nth j r n0) X.
  Definition cols (X : mat A) : list (vec A) := map (fun j => col j X) (seq 0 (ncols X)).
  (** X.T *)
  Definition transpose (X : mat A) : mat A := cols X.
  (** X w *)
  Definition matvec (X : mat A) (w : vec A) : vec A := map (fun r => dot r w) X.
  (** X' y *)
  Definition tmatvec (X : mat A) (y : vec A) : vec A := map (fun c => dot c y) (cols X).
  (** X Y, with Y given by rows *)
  Definition matmul (X Y : mat A) : mat A :=
    map (fun r => map (fun c => dot r c) (cols Y)) X.
  Definition outer (u v : vec A) : mat A := map (fun a => vscale a v) u.
  Definition msub (X Y : mat A) : mat A := map2 vsub X Y.
  Definition madd (X Y : mat A) : mat A := map2 vadd X Y.
  Definition mscale (a : A) (X : mat A) : mat A := map (vscale a) X.
  Definition identity (k : nat) : mat A :=
    map (fun i => map (fun j => if Nat.eqb i j then n1 else n0) (seq 0 k)) (seq 0 k).
  Definition mget (X : mat A) (i j : nat) : A := nth j (nth i X []) n0.

  (** p-row matrix with the given columns *)
  Definition of_cols (p : nat) (cs : list (vec A)) : mat A :=
    map (fun j => map (fun c => nth j c n0) cs) (seq 0 p).

  (** [any] NaN in a vector / matrix *)
  Definition vanynan (v : vec A) : bool := existsb nisnan v.
  Definition manynan (X : mat A) : bool := existsb vanynan X.
  Definition nonnan (v : vec A) : vec A := filter (fun x => negb (nisnan x)) v.
  (** np.nansum, np.nanmean, np.nanvar, np.nanmedian of a vector *)
  Definition nansum (v : vec A) : A := vsum (nonnan v).
  Definition nanmean (v : vec A) : A := vmean (nonnan v).
  Definition nanvar (v : vec A) : A := vvar (nonnan v).
  Definition nanmedian (v : vec A) : A := vmedian (nonnan v).

  (** well-formed n x p matrix *)
  Definition wf (n p : nat) (X : mat A) : Prop :=
    length X = n /\ Forall (fun r => length r = p) X.

  (** sequencing a list of results *)
  Fixpoint mapM {B C} (f : B -> res C) (l : list B) : res (list C) :=
    match l with
    | [] => Ok []
    | x :: l' => bind (f x) (fun y => bind (mapM f l') (fun ys => Ok (y :: ys)))
    end.

  (** np.where(mask)[0] *)
  Fixpoint where_from {B} (f : B -> bool) (k : nat) (l : list B) : list nat :=
    match l with
    | [] => []
    | x :: l' => if f x then k :: where_from f (S k) l' else where_from f (S k) l'
    end.
  Definition where_ {B} (f : B -> bool) (l : list B) : list nat := where_from f 0 l.

  (** x[idx] = v for a list of indices (idx within range) *)
  Definition set_idx (idx : list nat) (v : A) (x : vec A) : vec A :=
    map (fun ix => if existsb (Nat.eqb (fst ix)) idx then v else snd ix)
        (combine (seq 0 (length x)) x).
End Vec.
