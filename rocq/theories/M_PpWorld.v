(** Several ppdire instances in one process (ppdire.py:163-183).

    The default value of optimizer_options is one dictionary object, created
    when the class is defined; every instance constructed without that argument
    holds a reference to it. *)

From Coq Require Import String List Arith ZArith Bool.
Import List. Import ListNotations.
From Verif Require Import Num Err Vec M_Utils M_Preproc M_Robcent M_Dicomo M_Ipopt M_Ppdire.

(** The dictionaries alive (the one at address 0 is the default), and for each
    instance its parameters and the address of its optimizer_options. *)
Record world (A : Type) : Type := mk_world { w_heap : list dict; w_inst : list (pparams A * nat) }.
Arguments mk_world {A}. Arguments w_heap {A}. Arguments w_inst {A}.

(** ppdire.py:170 *)
Definition default_options : dict := [(KStr "maxiter", VInt 100000)].
Definition world0 {A : Type} : world A := mk_world [default_options] [].

(** What a program does: construct an instance, without optimizer_options or
    with a dictionary of its own; fit instance [i].  set_params and dictionaries
    shared by the caller are not modelled. *)
Inductive wop (A : Type) : Type :=
| WNew (prm : pparams A) (options : option dict)
| WFit (i : nat) (X : mat A) (f : fkw A).
Arguments WNew {A}. Arguments WFit {A}.

(** l[i] = v *)
Definition put {B : Type} (i : nat) (v : B) (l : list B) : list B := firstn i l ++ match skipn i l with [] => [] | _ :: t => v :: t end.

Section World.
  Context {A : Type} `{Num A}.
  Variable env : pp_env A.
  (** the world after the operation and what it returns: nothing, or the result of fit *)
  Definition wstep (w : world A) (o : wop A) : world A * option (res (pp_model A)) :=
    match o with
    | WNew prm None =>
        match pp_init prm with
        | Ok prm' => (mk_world (w_heap w) (w_inst w ++ [(prm', 0)]), None)
        | Err e => (w, None)
        end
    | WNew prm (Some d) =>
        match pp_init prm with
        | Ok prm' => (mk_world (w_heap w ++ [d]) (w_inst w ++ [(prm', length (w_heap w))]), None)
        | Err e => (w, None)
        end
    | WFit i X f =>
        match nth_error (w_inst w) i with
        | None => (w, None)
        | Some (prm, a) =>
            let '(prm', d', r) := pp_fit env prm (nth a (w_heap w) []) X f in
            (mk_world (put a d' (w_heap w)) (put i (prm', a) (w_inst w)), Some r)
        end
    end.
  Fixpoint wrun (w : world A) (ops : list (wop A)) : world A :=
    match ops with [] => w | o :: ops' => wrun (fst (wstep w o)) ops' end.

  (** the parameters get_params() of instance [i] shows, options included *)
  Definition params_of (w : world A) (i : nat) : option (pparams A * dict) :=
    match nth_error (w_inst w) i with Some (prm, a) => Some (prm, nth a (w_heap w) []) | None => None end.
  (** constructed without optimizer_options *)
  Definition by_default (w : world A) (i : nat) : Prop := exists prm, nth_error (w_inst w) i = Some (prm, 0).
End World.
