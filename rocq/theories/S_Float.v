(** What is assumed of rounded arithmetic *)
From Coq Require Import Reals.
Open Scope R_scope.

(** a rounding to the numbers of some format: monotone, symmetric, leaves the
    numbers of the format (those with rnd x = x) alone, among them 0, 1/2, 1 and the
    doubles of numbers of the format, and two different numbers of the format
    have a rounded difference that is not 0 (gradual underflow) *)
Record rounding (rnd : R -> R) : Prop := {
  rnd_mono : forall x y, x <= y -> rnd x <= rnd y;
  rnd_idem : forall x, rnd (rnd x) = rnd x;
  rnd_0 : rnd 0 = 0;
  rnd_1 : rnd 1 = 1;
  rnd_half : rnd (/2) = /2;
  rnd_opp : forall x, rnd (- x) = - rnd x;
  rnd_diff : forall x y, rnd x = x -> rnd y = y -> x < y -> 0 < rnd (y - x);
  rnd_double : forall x, rnd x = x -> rnd (2 * x) = 2 * x }.
