(** Small specification for C196. *)
From Coq Require Import Reals List.
Import ListNotations.
From Verif Require Import Num.

(** some entry of a full row of X is missing *)
Definition missing_in (p : nat) (X : list (list XR)) : Prop := exists r, In r X /\ In NaN r /\ length r = p.
(** some entry of X in one of the columns [keep] is missing *)
Definition missing_kept (keep : list nat) (X : list (list XR)) : Prop := exists r j, In r X /\ In j keep /\ nth_error r j = Some NaN.
(** every entry is missing *)
Definition all_missing (v : list XR) : Prop := Forall (eq NaN) v.
