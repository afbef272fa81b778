(** Model of src/direpack/ipopt_temp/ipopt_wrapper.py and src/direpack/ipopt_temp/jacobian.py,
    and of the Python dictionaries they work on. *)

From Coq Require Import String List Arith ZArith QArith Bool.
Import ListNotations.
From Verif Require Import Num Err Vec.

(** ** Python dictionaries with insertion order *)

(** keys: a str, a bytes object, or anything else *)
Inductive key : Type := KStr (s : string) | KBytes (s : string) | KOther (k : nat).
Definition key_eqb (a b : key) : bool :=
  match a, b with
  | KStr s, KStr t => (s =? t)%string
  | KBytes s, KBytes t => (s =? t)%string
  | KOther j, KOther k => (j =? k)%nat
  | _, _ => false
  end.

(** values of option dictionaries *)
Inductive pyval : Type :=
| VNone | VInt (z : Z) | VFloat (q : Q) | VStr (s : string) | VBytes (s : string) | VOther (k : nat).
(** bool(v) for None and numbers *)
Definition truthy (v : pyval) : bool :=
  match v with
  | VNone => false
  | VInt z => negb (z =? 0)%Z
  | VFloat q => negb (Qeq_bool q 0)
  | VStr s | VBytes s => negb (s =? "")%string
  | VOther _ => true
  end.

Definition dict : Type := list (key * pyval).
(** k in d *)
Definition dmem (k : key) (d : dict) : bool := existsb (fun kv => key_eqb k (fst kv)) d.
(** d.get(k) *)
Fixpoint dget (k : key) (d : dict) : option pyval :=
  match d with
  | [] => None
  | (k', v) :: d' => if key_eqb k k' then Some v else dget k d'
  end.
(** d[k] = v: an existing key keeps its position *)
Fixpoint dset (k : key) (v : pyval) (d : dict) : dict :=
  match d with
  | [] => [(k, v)]
  | (k', v') :: d' => if key_eqb k k' then (k', v) :: d' else (k', v') :: dset k v d'
  end.
(** d.pop(k) *)
Definition dpop (k : key) (d : dict) : dict := filter (fun kv => negb (key_eqb k (fst kv))) d.

(** ** Options (ipopt_wrapper.py) *)

(** :170-173 replace_option *)
Definition replace_option (d : dict) (old new : key) : dict :=
  match dget old d with
  | Some v => if dmem new d then d else dset new v (dpop old d)
  | None => d
  end.

(** :175-183 convert_to_bytes, for one key: [bytes(key, 'utf-8')] raises
    TypeError (which is swallowed) for anything but a str *)
Definition convert_key (d : dict) (k : key) : dict :=
  match k with
  | KStr s => match dget k d with
              | Some v => dpop k (dset (KBytes s) v d)
              | None => d
              end
  | _ => d
  end.
Definition convert_to_bytes (d : dict) : dict := fold_left convert_key (map fst d) d.

(** [if k not in options: options[k] = v] *)
Definition set_default (k : key) (v : pyval) (d : dict) : dict := if dmem k d then d else dset k v d.

(** :219-233 the options passed to the solver.  This is the caller's dictionary,
    modified in place; hess and hessp are None (anything else has already
    raised NotImplementedError, :55-56). *)
Definition solver_options (tol : pyval) (d : dict) : dict :=
  let d := convert_to_bytes d in
  let d := replace_option d (KBytes "disp") (KBytes "print_level") in
  let d := replace_option d (KBytes "maxiter") (KBytes "max_iter") in
  let d := set_default (KBytes "print_level") (VInt 0) d in
  let d := set_default (KBytes "tol") (if truthy tol then tol else VFloat (1 # 100000000)) d in
  let d := set_default (KBytes "mu_strategy") (VBytes "adaptive") d in
  set_default (KBytes "hessian_approximation") (VBytes "limited-memory") d.

(** ** Functions with approximate Jacobian (jacobian.py) *)
Section Jacobian.
  Context {A : Type} `{Num A} {Ar : Type}.
  Open Scope num_scope.

  (** the value cache: keys tuple(x) with the stored value *)
  Definition vcache : Type := list (list A * list A).
  (** equality of tuples of floats *)
  Fixpoint veqb (u v : list A) : bool :=
    match u, v with
    | [], [] => true
    | a :: u', b :: v' => (a =?! b) && veqb u' v'
    | _, _ => false
    end.

  (** jacobian.py:17-25 __call__; [f x a] is np.atleast_1d of the function value.
      Logging is left out. *)
  Definition cached_call (f : list A -> Ar -> list A) (c : vcache) (x : list A) (a : Ar) : vcache * list A :=
    match find (fun kv => veqb (fst kv) x) c with
    | Some kv => (c, snd kv)
    | None => let v := f x a in (c ++ [(x, v)], v)
    end.
  Fixpoint cached_calls (f : list A -> Ar -> list A) (c : vcache) (xs : list (list A)) (a : Ar) : vcache * list (list A) :=
    match xs with
    | [] => (c, [])
    | x :: xs' => let '(c1, v) := cached_call f c x a in
                  let '(c2, vs) := cached_calls f c1 xs' a in (c2, v :: vs)
    end.

  (** eps times the i-th unit vector of length n (a column of dxs) *)
  Definition unit_step (n i : nat) (e : A) : list A := map (fun k => if (k =? i)%nat then e else n0) (seq 0 n).

  (** n x m matrix of rows, transposed (also when n = 0) *)
  Definition transposed (m : nat) (rows : list (list A)) : list (list A) :=
    map (fun r => map (fun row => nth r row n0) rows) (seq 0 m).

  (** jacobian.py:37-49 jac: forward differences *)
  Definition jac_forward (f : list A -> Ar -> list A) (eps : A) (c : vcache) (x : list A) (a : Ar) : vcache * list (list A) :=
    let n := length x in
    let pts := vadd x (vzeros n) :: map (fun i => vadd x (unit_step n i eps)) (seq 0 n) in
    let '(c', rs) := cached_calls f c pts a in
    let r0 := nth 0 rs [] in
    (c', transposed (length r0)
           (map (fun i => map (fun d => d /! eps) (vsub (nth (S i) rs []) r0)) (seq 0 n))).

  (** jacobian.py:52-65 the central variant *)
  Definition jac_central (f : list A -> Ar -> list A) (eps : A) (c : vcache) (x : list A) (a : Ar) : vcache * list (list A) :=
    let n := length x in
    let pts := map (fun i => vadd x (unit_step n i (nopp eps))) (seq 0 n)
               ++ map (fun i => vadd x (unit_step n i eps)) (seq 0 n) in
    let '(c', rs) := cached_calls f c pts a in
    (c', transposed (length (nth 0 rs []))
           (map (fun i => map (fun d => d /! (nnat 2 *! eps)) (vsub (nth (n + i) rs []) (nth i rs []))) (seq 0 n))).

  (** ** Constraints (ipopt_wrapper.py) *)

  (** one constraint dictionary: 'type', 'fun' (np.atleast_1d of its value),
      'jac' if given, 'args' *)
  Record con : Type := mk_con {
    c_type : string; c_fun : list A -> Ar -> list A; c_jac : option (list A -> Ar -> list (list A)); c_args : Ar }.
  (** an element of a sequence of constraints: a dictionary or something that
      cannot be subscripted by 'fun' (a nested list or tuple: TypeError) *)
  Inductive con_entry : Type := CDict (c : con) | CSeq (l : list con).
  (** the constraints argument (:71-72, :149-150) *)
  Inductive con_arg : Type := COne (c : con) | CMany (l : list con_entry).
  Definition con_list (a : con_arg) : list con_entry := match a with COne c => [CDict c] | CMany l => l end.

  (** INF (:148) *)
  Definition ipopt_inf : A := nZ 10000000000000000000.

  (** :148-167 get_constraint_bounds *)
  Fixpoint con_bounds (l : list con_entry) (x0 : list A) : res (list A * list A) :=
    match l with
    | [] => Ok ([], [])
    | CSeq _ :: _ => Err TypeError
    | CDict c :: l' =>
        let m := length (c_fun c x0 (c_args c)) in
        bind (if (c_type c =? "eq")%string then Ok (repeat n0 m)
              else if (c_type c =? "ineq")%string then Ok (repeat ipopt_inf m)
              else Err ValueError) (fun u =>
        bind (con_bounds l' x0) (fun '(cl, cu) => Ok (repeat n0 m ++ cl, u ++ cu)))
    end.
  Definition get_constraint_bounds (a : con_arg) (x0 : list A) : res (list A * list A) := con_bounds (con_list a) x0.

  (** :48-86 IpoptProblemWrapper: the constraints with their value caches (used
      only where no 'jac' was given).  A nested sequence is a TypeError (:74). *)
  Definition wrapper : Type := list (con * vcache).
  Fixpoint wrap_cons (l : list con_entry) : res wrapper :=
    match l with
    | [] => Ok []
    | CSeq _ :: _ => Err TypeError
    | CDict c :: l' => bind (wrap_cons l') (fun w => Ok ((c, []) :: w))
    end.
  (** eps=1e-8 (:50) *)
  Definition wrap_eps : A := nlit 1 100000000.

  (** :109-113 constraints: np.hstack of the values *)
  Definition eval_con (cw : con * vcache) (x : list A) : (con * vcache) * list A :=
    let '(c, w) := cw in
    match c_jac c with
    | Some _ => ((c, w), c_fun c x (c_args c))
    | None => let '(w', v) := cached_call (c_fun c) w x (c_args c) in ((c, w'), v)
    end.
  Fixpoint wrapper_constraints (w : wrapper) (x : list A) : wrapper * list A :=
    match w with
    | [] => ([], [])
    | cw :: w' => let '(cw1, v) := eval_con cw x in
                  let '(w1, vs) := wrapper_constraints w' x in (cw1 :: w1, v ++ vs)
    end.
  (** :115-119 jacobian: np.vstack of the Jacobians *)
  Definition jac_con (cw : con * vcache) (x : list A) : (con * vcache) * list (list A) :=
    let '(c, w) := cw in
    match c_jac c with
    | Some j => ((c, w), j x (c_args c))
    | None => let '(w', v) := jac_forward (c_fun c) wrap_eps w x (c_args c) in ((c, w'), v)
    end.
  Fixpoint wrapper_jacobian (w : wrapper) (x : list A) : wrapper * list (list A) :=
    match w with
    | [] => ([], [])
    | cw :: w' => let '(cw1, v) := jac_con cw x in
                  let '(w1, vs) := wrapper_jacobian w' x in (cw1 :: w1, v ++ vs)
    end.

  (** ** Objective with jac=True (:88-107).  Arrays are mutable: [heap] holds
      the contents of the caller's arrays, [last_x] is a reference. *)
  Definition heap : Type := nat -> list A.
  Record fg_state : Type := mk_fg { fg_last : option nat; fg_value : option (A * list A); fg_nfev : nat }.
  Definition fg0 : fg_state := mk_fg None None 0.
  (** :88-93 evaluate_fun_with_grad, called with the array at location [x] *)
  Definition evaluate_fun_with_grad (f : list A -> A * list A) (h : heap) (s : fg_state) (x : nat) : fg_state * res (A * list A) :=
    match fg_last s with
    | Some l => if veqb (h l) (h x)
                then (s, match fg_value s with Some v => Ok v | None => Err AttributeError end)
                else (mk_fg (Some x) (Some (f (h x))) (S (fg_nfev s)), Ok (f (h x)))
    | None => (mk_fg (Some x) (Some (f (h x))) (S (fg_nfev s)), Ok (f (h x)))
    end.
  (** what the solver and its caller do: write an array, ask for objective or gradient *)
  Inductive fg_op : Type := FWrite (l : nat) (v : list A) | FObjective (l : nat) | FGradient (l : nat).
  Definition hset (h : heap) (l : nat) (v : list A) : heap := fun k => if (k =? l)%nat then v else h k.
  (** the values returned by the successive calls, [None] for a write *)
  Fixpoint fg_run (f : list A -> A * list A) (h : heap) (s : fg_state) (ops : list fg_op) : list (option (res (A + list A))) :=
    match ops with
    | [] => []
    | FWrite l v :: ops' => None :: fg_run f (hset h l v) s ops'
    | FObjective l :: ops' =>
        let '(s', r) := evaluate_fun_with_grad f h s l in
        Some (bind r (fun v => Ok (inl (fst v)))) :: fg_run f h s' ops'
    | FGradient l :: ops' =>
        let '(s', r) := evaluate_fun_with_grad f h s l in
        Some (bind r (fun v => Ok (inr (snd v)))) :: fg_run f h s' ops'
    end.

  (** ** minimize_ipopt (:185-251), with jac, hess, hessp, bounds and callback
      None.  [solve opts cl cu w x0] are add_option for every option and
      nlp.solve: the .x of the result.  Returns the caller's options dictionary
      afterwards and the result.  [d] is {} if options is None. *)
  Definition minimize_ipopt (solve : dict -> list A -> list A -> wrapper -> list A -> res (list A))
      (x0 : list A) (cons : con_arg) (tol : pyval) (d : dict) : dict * res (list A) :=
    match wrap_cons (con_list cons) with
    | Err e => (d, Err e)
    | Ok w =>
        match get_constraint_bounds cons x0 with
        | Err e => (d, Err e)
        | Ok (cl, cu) => let d' := solver_options tol d in (d', solve d' cl cu w x0)
        end
    end.
End Jacobian.
Arguments con : clear implicits. Arguments con_entry : clear implicits. Arguments con_arg : clear implicits.
