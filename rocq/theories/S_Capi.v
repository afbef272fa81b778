(** Specifications for the co-moment analysis projection index. *)

From Coq Require Import String Reals List Arith ZArith Bool.
Import List. Import ListNotations.
From Verif Require Import Num Err Vec S_Stats M_Utils M_Dicomo S_Dicomo M_Capi.
Open Scope R_scope.

(** A projection index that has a value V mode order option for the data at
    hand, whatever was computed with the object before: [inv m s] says that s
    is a state of the object in which its mode is m. *)
Definition answers {A St} (pi : pindex A St) (inv : string -> St -> Prop) (x y : arr A) (kw : dkw A) (V : string -> Z -> Z -> A) : Prop :=
  (forall m s m', inv m s -> exists s', pi_mode pi s m' = Ok s' /\ inv m' s') /\
  (forall m s i j, inv m s -> In m ["cov"; "cos"; "cok"; "com"]%string -> (2 <= i <= 4)%Z -> (1 <= j <= i)%Z ->
     exists s', pi_fit pi s x y i j kw = (s', Ok (V m i j)) /\ inv m s').

(** the mode asked for at each degree *)
Definition mode_at (scaling : bool) (i : Z) : string :=
  if scaling then (if (i =? 2)%Z then "cov" else if (i =? 3)%Z then "cos" else "cok")%string else "com"%string.

(** the standard deviation and the standardised co-moments of two samples *)
Definition sd (x : list R) : R := sqrt (variance_of x).
Definition std_comoment (a b : nat) (x y : list R) : R := comoment a b x y / (sd x ^ a * sd y ^ b).
