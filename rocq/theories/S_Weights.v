(** Textbook weight functions of a scaled distance, and related notions. *)

From Coq Require Import Reals List Arith.
Import ListNotations.
From Verif Require Import M_Msupport.
Open Scope R_scope.

Definition fair_weight (c x : R) : R := 1 / ((1 + Rabs x / (2 * c)) * (1 + Rabs x / (2 * c))).
Definition huber_weight (c x : R) : R := if Rle_dec x c then 1 else c / x.
Definition hampel_weight (c b r x : R) : R :=
  if Rle_dec x c then 1
  else if Rle_dec x b then c / x
  else if Rle_dec x r then c * (r - x) / ((r - b) * x)
  else 0.

Definition nonneg (l : list R) : Prop := Forall (fun x => 0 <= x) l.

(** the textbook weight selected by the option [fun], and the cut-offs for which
    the functions compute it *)
Definition textbook (f : mfun) (c b r v : R) : R :=
  match f with MFair => fair_weight c v | MHuber => huber_weight c v | MHampel => hampel_weight c b r v end.
Definition cutoffs_ok (f : mfun) (c b r : R) : Prop :=
  match f with MFair => 0 < c | MHuber => 1 <= c | MHampel => 1 <= c /\ c < b /\ b < r end.

