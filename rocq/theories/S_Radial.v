(** Radial functions of generalised spatial signs, as published
    (Raymaekers & Rousseeuw 2019), in terms of order statistics of the norms. *)

From Coq Require Import Reals List Arith.
Import ListNotations.
From Verif Require Import S_Stats.
Open Scope R_scope.

(** t = d^(2/3) for d >= 0 *)
Definition two_thirds (d t : R) : Prop := 0 <= t /\ t * t * t = d * d.

(** rank (from 0) of the "h-median" of n norms in p dimensions *)
Definition hrank (n p : nat) : nat := ((n + p + 1) / 2 - 1)%nat.

Definition quad_rule (n p : nat) (dd xi : list R) : Prop :=
  exists h, is_order_stat dd (hrank n p) h /\ forall i, (i < n)%nat ->
    (nth i dd 0 <= h -> nth i xi 0 = 1) /\
    (h < nth i dd 0 -> nth i xi 0 * nth i dd 0 = h * h / nth i dd 0).

Definition winsor_rule (n p : nat) (dd xi : list R) : Prop :=
  exists h, is_order_stat dd (hrank n p) h /\ forall i, (i < n)%nat ->
    (nth i dd 0 <= h -> nth i xi 0 = 1) /\
    (h < nth i dd 0 -> nth i xi 0 * nth i dd 0 = h).

Definition ball_rule (n p : nat) (dd xi : list R) : Prop :=
  exists h, is_order_stat dd (hrank n p) h /\ forall i, (i < n)%nat ->
    (nth i dd 0 <= h -> nth i xi 0 = 1) /\ (h < nth i dd 0 -> nth i xi 0 = 0).

(** [t] are the norms to the power 2/3, [m] their h-median, [a] the h-median of
    their absolute deviations from [m] *)
Definition wilson_hilferty (n p : nat) (dd t : list R) (m a : R) : Prop :=
  length t = n /\ (forall i, (i < n)%nat -> two_thirds (nth i dd 0) (nth i t 0)) /\
  is_order_stat t (hrank n p) m /\ is_order_stat (map (fun x => Rabs (x - m)) t) (hrank n p) a.

Definition shell_rule (n p : nat) (dd xi : list R) : Prop :=
  exists t m a, wilson_hilferty n p dd t m a /\ forall i, (i < n)%nat ->
    (Rabs (nth i t 0 - m) <= a -> nth i xi 0 = 1) /\ (a < Rabs (nth i t 0 - m) -> nth i xi 0 = 0).

Definition linred_rule (n p : nat) (dd xi : list R) : Prop :=
  exists t m a h c, wilson_hilferty n p dd t m a /\ is_order_stat dd (hrank n p) h /\
    0 <= c /\ two_thirds c (m + 14826 / 10000 * a) /\ h <= c /\ forall i, (i < n)%nat ->
    (nth i dd 0 <= h -> nth i xi 0 = 1) /\
    (h < nth i dd 0 <= c -> nth i xi 0 = 1 - (nth i dd 0 - h) / (c - h)) /\
    (c < nth i dd 0 -> nth i xi 0 = 0).

Definition ss_rule (n p : nat) (dd xi : list R) : Prop :=
  forall i, (i < n)%nat -> 0 < nth i xi 0 /\
    (1 / 10000000000 <= nth i dd 0 -> nth i xi 0 * nth i dd 0 = 1) /\
    (nth i dd 0 < 1 / 10000000000 -> 0 <= nth i xi 0 * nth i dd 0 < 1).
