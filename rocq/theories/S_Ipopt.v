(** Specifications for the interior-point wrapper. *)

From Coq Require Import String Reals List Arith ZArith QArith Bool.
Import ListNotations.
From Verif Require Import Num Err Vec S_Stats M_Ipopt.
Open Scope R_scope.

(** ** options *)
(** Python dictionaries have distinct keys *)
Definition keys_distinct (d : dict) : Prop := NoDup (map fst d).
(** the value the user gave for an option name, as str or as bytes *)
Definition user_option (d : dict) (name : string) : option pyval :=
  match dget (KStr name) d with Some v => Some v | None => dget (KBytes name) d end.

(** names that are not aliases of one another *)
Definition plain_name (s : string) : Prop :=
  s <> "print_level"%string /\ s <> "disp"%string /\ s <> "max_iter"%string /\ s <> "maxiter"%string.
(** what is added for a name that was not given *)
Definition default_option (tol : pyval) (s : string) : option pyval :=
  if (s =? "tol")%string then Some (if truthy tol then tol else VFloat (1 # 100000000))
  else if (s =? "mu_strategy")%string then Some (VBytes "adaptive")
  else if (s =? "hessian_approximation")%string then Some (VBytes "limited-memory") else None.

(** ** points and derivatives *)
(** x with coordinate i moved by t *)
Definition moved (x : list R) (i : nat) (t : R) : list R :=
  map (fun k => nth k x 0 + (if Nat.eqb k i then t else 0)) (seq 0 (length x)).
(** component r of a vector-valued function *)
Definition comp {Ar} (f : list R -> Ar -> list R) (a : Ar) (r : nat) (x : list R) : R := nth r (f x a) 0.
(** d is the partial derivative of g at x in coordinate i *)
Definition is_partial (g : list R -> R) (x : list R) (i : nat) (d : R) : Prop :=
  derivable_pt_lim (fun t => g (moved x i t)) 0 d.
(** g is affine, or at most quadratic, along the coordinate line through x *)
Definition affine_line (g : list R -> R) (x : list R) (i : nat) : Prop :=
  exists a b, forall t, g (moved x i t) = a + b * t.
Definition quadratic_line (g : list R -> R) (x : list R) (i : nat) : Prop :=
  exists a b c, forall t, g (moved x i t) = a + b * t + c * (t * t).
(** every value of f at a point with n coordinates has m components *)
Definition outputs {Ar} (f : list R -> Ar -> list R) (a : Ar) (n m : nat) : Prop :=
  forall x, length x = n -> length (f x a) = m.

(** ** constraints *)
(** what the user means by a constraint, with the solver's infinity for "unbounded" *)
Definition satisfied {Ar} (c : con R Ar) (x : list R) : Prop :=
  forall v, In v (c_fun c x (c_args c)) ->
    if (c_type c =? "eq")%string then v = 0 else 0 <= v <= 10000000000000000000.
Definition known_type {Ar} (c : con R Ar) : Prop := c_type c = "eq"%string \/ c_type c = "ineq"%string.
(** componentwise l <= v <= u *)
Definition within (l v u : list R) : Prop :=
  length v = length l /\ length v = length u /\
  forall i, (i < length v)%nat -> nth i l 0 <= nth i v 0 <= nth i u 0.

(** ** histories *)
(** calls of an object with an approximate Jacobian *)
Inductive jop : Type := JCall (x : list R) | JForward (x : list R) | JCentral (x : list R).
Definition jresult {Ar} (f : list R -> Ar -> list R) (eps : R) (c : vcache (A := R)) (a : Ar) (o : jop) : vcache (A := R) * list (list R) :=
  match o with
  | JCall x => let '(c', v) := cached_call f c x a in (c', [v])
  | JForward x => jac_forward f eps c x a
  | JCentral x => jac_central f eps c x a
  end.
Fixpoint jrun {Ar} (f : list R -> Ar -> list R) (eps : R) (c : vcache (A := R)) (h : list (jop * Ar)) : list (list (list R)) :=
  match h with
  | [] => []
  | (o, a) :: h' => let '(c', v) := jresult f eps c a o in v :: jrun f eps c' h'
  end.
Definition jop_ok (o : jop) : Prop := match o with JCentral x => x <> [] | _ => True end.

(** what a call of [f] with arguments [a] ought to return *)
Definition expected {Ar} (f : list R -> Ar -> list R) (eps : R) (a : Ar) (o : jop) (out : list (list R)) : Prop :=
  match o with
  | JCall x => out = [f x a]
  | JForward x => forall m, outputs f a (length x) m -> is_matrix m (length x) out /\ forall r i, (r < m)%nat -> (i < length x)%nat ->
      cell out r i = (comp f a r (moved x i eps) - comp f a r x) / eps
  | JCentral x => forall m, outputs f a (length x) m -> is_matrix m (length x) out /\ forall r i, (r < m)%nat -> (i < length x)%nat ->
      cell out r i = (comp f a r (moved x i eps) - comp f a r (moved x i (- eps))) / (2 * eps)
  end.
(** the wrapper after the solver has asked for constraints (false) and Jacobians (true) *)
Fixpoint after {Ar} (w : wrapper (A := R) (Ar := Ar)) (ops : list (bool * list R)) : wrapper (A := R) (Ar := Ar) :=
  match ops with
  | [] => w
  | (b, y) :: ops' => after (if b then fst (wrapper_jacobian w y) else fst (wrapper_constraints w y)) ops'
  end.
(** the solver never writes into an array it has passed before *)
Definition fresh_writes (ops : list (fg_op (A := R))) : Prop :=
  forall i j l v, nth_error ops j = Some (FWrite l v) -> (i < j)%nat ->
    nth_error ops i <> Some (FObjective l) /\ nth_error ops i <> Some (FGradient l).
(** what a call returns if nothing is cached *)
Fixpoint fg_plain (f : list R -> R * list R) (h : heap (A := R)) (ops : list (fg_op (A := R))) : list (option (res (R + list R))) :=
  match ops with
  | [] => []
  | FWrite l v :: ops' => None :: fg_plain f (hset h l v) ops'
  | FObjective l :: ops' => Some (Ok (inl (fst (f (h l))))) :: fg_plain f h ops'
  | FGradient l :: ops' => Some (Ok (inr (snd (f (h l))))) :: fg_plain f h ops'
  end.
