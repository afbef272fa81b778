(** Small specification for C81. *)
From Coq Require Import String QArith ZArith.
From Verif Require Import M_Ipopt.

(** None, zero or an empty string: values with which Python's [or] takes the other operand *)
Definition empty_value (v : pyval) : Prop := v = VNone \/ v = VInt 0 \/ (exists q, v = VFloat q /\ (q == 0)%Q) \/ v = VStr "" \/ v = VBytes "".
