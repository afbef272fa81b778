(** Model of src/direpack/utils/utils.py *)

From Coq Require Import List Arith ZArith Bool.
Import ListNotations.
From Verif Require Import Num Err Vec.

(** An ndarray argument with one or two dimensions.  (Zero- and
    three-dimensional arrays are not modelled: the code raises on them when it
    unpacks [X.shape].  pandas inputs are identified with their values.) *)
Inductive arr (A : Type) : Type :=
| A1 (v : list A)
| A2 (X : list (list A)).
Arguments A1 {A} v.
Arguments A2 {A} X.

Section Utils.
  Context {A : Type} `{Num A}.
  Open Scope num_scope.

  (** utils.py:64-80 [_check_input].  The dtype conversions of lines 66-70 are
      the identity on numbers.  Lines 72-73: a vector becomes one row; lines
      77-79: one row with at least two columns becomes one column. *)
  Definition check_input (x : arr A) : mat A :=
    let X := match x with A1 v => [v] | A2 X => X end in
    if (length X =? 1)%nat && (2 <=? ncols X)%nat
    then map (fun a => [a]) (hd [] X)
    else X.

  (** utils.py:53-61 [_predict_check_input]: a vector (or Series) is one row;
      returns (n, p, Xn). *)
  Definition predict_check_input (x : arr A) : nat * nat * mat A :=
    let X := match x with A1 v => [v] | A2 X => X end in
    (length X, ncols X, X).

  (** utils.py:24-28 [convert_y_input] for pandas input: [to_numpy().T].  A
      Series (1-d) is unchanged by the transpose, an n x 1 DataFrame becomes
      1 x n. *)
  Definition convert_y_input_pandas (y : arr A) : arr A :=
    match y with A1 v => A1 v | A2 Y => A2 (transpose Y) end.

  (** utils.py:83-91 [nandot].  The result is the one-column matrix whose
      entries are listed. *)
  Definition nandot (X : mat A) (y : vec A) : res (vec A) :=
    if (ncols X =? length y)%nat
    then Ok (map (fun r => nansum (vmul r y)) X)
    else Err AssertionError.

  (** utils.py:94-108 [nanmatdot] for a two-dimensional [Y] with q >= 2 columns
      (line 104-108): the outer comprehension runs over the columns of [Y]. *)
  Definition nanmatdot (X Y : mat A) : res (mat A) :=
    if (ncols X =? length Y)%nat then
      if (ncols Y =? 1)%nat
      then Ok (map (fun r => [nansum (vmul r (col 0 Y))]) X)
      else Ok (map (fun c => map (fun r => nansum (vmul r c)) X) (cols Y))
    else Err AssertionError.
End Utils.
