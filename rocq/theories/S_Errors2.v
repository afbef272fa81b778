(** Specification for C181. *)

From Coq Require Import List.
From Verif Require Import M_Utils M_Dicomo.
Import ListNotations.

(** the same keyword arguments with another second sample *)
Definition with_y {A} (kw : dkw A) (y : arr A) : dkw A :=
  mk_dkw (Some y) (k_trim kw) (k_bias kw) (k_alpha kw) (k_calc kw) (k_order kw) (k_option kw) (k_fisher kw) (k_std kw) (k_metric kw).
(** a sample as an array with one column *)
Definition one_column {A} (x : list A) : arr A := A2 (map (fun v => [v]) x).
