(** Model of src/direpack/ppdire/capi.py *)

From Coq Require Import String List Arith ZArith Bool.
Import List. Import ListNotations.
From Verif Require Import Num Err Vec M_Utils M_Dicomo.

(** A projection index class as capi uses it: [pi_new] is
    projection_index( **pi_arguments) (capi.py:69), [pi_mode] is
    set_params(mode=...) (:96) and [pi_fit] is fit(x, order=, y=, option=,
    **kwargs) (:100).  The keyword arguments of capi.fit are those of [kw];
    order, y and option are given separately because capi overrides them
    (:91, :95, :99). *)
Record pindex (A St : Type) : Type := mk_pindex {
  pi_new : res St;
  pi_mode : St -> string -> res St;
  pi_fit : St -> arr A -> arr A -> Z -> Z -> dkw A -> St * res A
}.
Arguments mk_pindex {A St}. Arguments pi_new {A St}. Arguments pi_mode {A St}. Arguments pi_fit {A St}.

(** State of a capi object: the parameters (capi.py:65-71) and the fitted
    attributes (:72, :104-105).  [c_options = None] is options='all'; a list
    of integers otherwise (a single integer is the list with one element).
    The parameters projection_index and pi_arguments are represented by the
    object [c_most] built from them; centring is accepted by the constructor
    but stored nowhere.  weights is a one-dimensional list. *)
Record cstate (A St : Type) : Type := mk_cstate {
  c_max : Z; c_weights : list A; c_scaling : bool; c_options : option (list Z);
  c_most : St; c_index : option A; c_moments : option (list A)
}.
Arguments mk_cstate {A St}. Arguments c_max {A St}. Arguments c_weights {A St}. Arguments c_scaling {A St}.
Arguments c_options {A St}. Arguments c_most {A St}. Arguments c_index {A St}. Arguments c_moments {A St}.

Section Capi.
  Context {A : Type} `{Num A} {St : Type}.
  Open Scope num_scope.
  Variable pi : pindex A St.

  (** capi.py:55-74 __init__: the projection index is built before max_degree
      is checked *)
  Definition capi_init (max_degree : Z) (weights : list A) (scaling : bool) (options : option (list Z)) : res (cstate A St) :=
    bind (pi_new pi) (fun m =>
    if (4 <? max_degree)%Z then Err ValueError
    else Ok (mk_cstate max_degree weights scaling options m None None)).

  (** :78-81 order_kwargs *)
  Definition order_kwargs (scaling : bool) : list string :=
    if scaling then ["cov"; "cos"; "cok"]%string else ["com"; "com"; "com"]%string.

  (** moments[i] = v for an array of length 6: negative indices count from the
      end, others outside -6..5 are an IndexError (:100) *)
  Definition set_slot (m : list A) (i : Z) (v : A) : res (list A) :=
    let l := Z.of_nat (length m) in
    if (i <? - l)%Z || (l <=? i)%Z then Err IndexError
    else
      let k := Z.to_nat (if (i <? 0)%Z then i + l else i) in
      Ok (firstn k m ++ v :: skipn (S k) m).

  (** :98-100: the inner loop; [base] is i - 3 + k *)
  Fixpoint capi_inner (m : St) (x y : arr A) (kw : dkw A) (i base : Z) (opts : list Z) (moments : list A)
    : St * res (list A) :=
    match opts with
    | [] => (m, Ok moments)
    | j :: opts' =>
        match pi_fit pi m x y i j kw with
        | (m', Err e) => (m', Err e)
        | (m', Ok v) =>
            match set_slot moments (base + j) v with
            | Err e => (m', Err e)
            | Ok moments' => capi_inner m' x y kw i base opts' moments'
            end
        end
    end.

  (** :94-102: the outer loop over the degrees in [is] *)
  Fixpoint capi_outer (m : St) (x y : arr A) (kw : dkw A) (modes : list string) (opts : list Z) (is : list Z) (k : Z) (moments : list A)
    : St * res (list A) :=
    match is with
    | [] => (m, Ok moments)
    | i :: is' =>
        match nth_error modes (Z.to_nat (i - 2)) with
        | None => (m, Err IndexError)
        | Some mode =>
          match pi_mode pi m mode with
          | Err e => (m, Err e)
          | Ok m1 =>
            let l := Nat.min (Z.to_nat (i - 1)) (length opts) in
            match capi_inner m1 x y kw i (i - 3 + k) (firstn l opts) moments with
            | (m2, Err e) => (m2, Err e)
            | (m2, Ok moments') => capi_outer m2 x y kw modes opts is' (if (i =? 3)%Z then k + 1 else k)%Z moments'
            end
          end
        end
    end.

  (** range(2, max_degree+1) *)
  Definition degrees (max_degree : Z) : list Z := map (fun a => Z.of_nat a + 2)%Z (seq 0 (Z.to_nat (max_degree - 1))).

  Definition with_most (s : cstate A St) (m : St) : cstate A St :=
    mk_cstate (c_max s) (c_weights s) (c_scaling s) (c_options s) m (c_index s) (c_moments s).

  (** :76-106 fit *)
  Definition capi_fit (s : cstate A St) (x y : arr A) (kw : dkw A) : cstate A St * res A :=
    if (c_max s <? 2)%Z then (s, Err ValueError)                                (* :83 *)
    else
      let opts := match c_options s with None => [1; 2; 3]%Z | Some l => l end in  (* :85-88 *)
      match capi_outer (c_most s) x y kw (order_kwargs (c_scaling s)) opts (degrees (c_max s)) 0 (vzeros 6) with
      | (m, Err e) => (with_most s m, Err e)
      | (m, Ok moments) =>
          if (length (c_weights s) =? 6)%nat then
            let v := dot (c_weights s) moments in                               (* :103 *)
            (mk_cstate (c_max s) (c_weights s) (c_scaling s) (c_options s) m (Some v) (Some moments), Ok v)
          else (with_most s m, Err ValueError)
      end.

  (** set_params(max_degree=...) (:162-195): stores the value without any check *)
  Definition capi_set_max (s : cstate A St) (d : Z) : cstate A St :=
    mk_cstate d (c_weights s) (c_scaling s) (c_options s) (c_most s) (c_index s) (c_moments s).
End Capi.

(** The projection index dicomo( **pi_arguments).  dicomo's order and option
    are natural numbers in the model (0 <= option <= order), see M_Dicomo. *)
Section CapiDicomo.
  Context {A : Type} `{Num A}.
  Variable dc : dcor_env A.
  Definition with_oyo (kw : dkw A) (y : arr A) (order option : Z) : dkw A :=
    mk_dkw (Some y) (k_trim kw) (k_bias kw) (k_alpha kw) (k_calc kw) (Some (Z.to_nat order)) (Some (Z.to_nat option))
      (k_fisher kw) (k_std kw) (k_metric kw).
  Definition dicomo_index (est mode center : string) : pindex A (dstate A) :=
    mk_pindex (dicomo_init est mode center)
      (fun s m => set_param1 s "mode" m)
      (fun s x y order option kw => dicomo_fit dc s x (with_oyo kw y order option)).
End CapiDicomo.
