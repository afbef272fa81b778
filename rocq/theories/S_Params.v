(** Specification notions for the parameter interface (C72, C121-C124). *)

From Coq Require Import String List Arith ZArith Bool.
Import List. Import ListNotations.
From Verif Require Import Err M_Params.
Open Scope string_scope.

(** the names of an object's parameters *)
Definition names_of (o : pobj) : list string := map fst (signature (po_cls o)).
(** no object disappears or changes its class, and no attribute other than a
    parameter changes *)
Definition kept (h h' : heap) : Prop := length h' = length h /\ forall b o, nth_error h b = Some o ->
  exists o', nth_error h' b = Some o' /\ po_cls o' = po_cls o /\ forall k, ~ In k (names_of o) -> aget k (po_attrs o') = aget k (po_attrs o).
(** the value the constructor gives a parameter *)
Definition given (c : cls) (args : attrs) (k : string) : val := match aget k args with Some v => v | None => match aget k (map (fun s => (fst s, match snd s with Some v => v | None => WNone end)) (signature c)) with Some v => v | None => WNone end end.
(** the values documented for center and sudiremeth (a function or a class is a method, too) *)
Definition documented_centre (v : val) : Prop := v = WStr "mean" \/ v = WStr "median".
Definition documented_method (v : val) : Prop :=
  (exists s, v = WStr s /\ In s ["sir"; "save"; "dr"; "dcov-sdr"; "bcov-sdr"; "mdd-sdr"; "phd"; "iht"]) \/ (exists k, v = WFun k) \/ (exists k, v = WClass k).
