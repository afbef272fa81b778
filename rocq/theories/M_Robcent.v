(** Model of src/direpack/preprocessing/robcent.py: VersatileScaler, Wrapper *)

From Coq Require Import List Arith ZArith Bool.
Import ListNotations.
From Verif Require Import Num Err Vec M_Utils M_Preproc.

(** Centre and scale options.  In the code these are strings evaluated in the
    name space of the module (robcent.py:114-122) or callables; [CUser]/[SUser]
    are callables, [CBad]/[SBad] any string that does not evaluate (NameError).
    The string "None" is [CNone]/[SNone]. *)
Inductive centre_opt (A : Type) : Type :=
| CMean | CMedian | CL1median | CKstepLTS | CNone | CBad
| CUser (f : mat A -> A -> res (vec A)).
Inductive scale_opt (A : Type) : Type :=
| SStd | SMad | STau2 | SNone | SBad
| SUser (f : mat A -> A -> res (vec A)).
Arguments CMean {A}. Arguments CMedian {A}. Arguments CL1median {A}.
Arguments CKstepLTS {A}. Arguments CNone {A}. Arguments CBad {A}. Arguments CUser {A}.
Arguments SStd {A}. Arguments SMad {A}. Arguments STau2 {A}. Arguments SNone {A}.
Arguments SBad {A}. Arguments SUser {A}.

(** external routines of the preprocessing module *)
Record prep_env (A : Type) : Type := {
  env_l1opt : mat A -> vec A -> vec A;   (* scipy.optimize.minimize(...).x *)
  env_es2 : A                            (* Es2(3): normal-distribution constant *)
}.
Arguments env_l1opt {A}. Arguments env_es2 {A}.

(** State of a VersatileScaler: parameters (robcent.py:95-102) and the
    attributes that exist (None = attribute not set). *)
Record scaler (A : Type) : Type := mk_scaler {
  sc_center : centre_opt A;
  sc_scale : scale_opt A;
  sc_trimming : A;
  a_col_loc : option (vec A);
  a_center : option (vec A);
  a_col_sca : option (vec A);
  a_scale : option (vec A);
  a_datas : option (mat A);
  a_datans : option (mat A)
}.
Arguments mk_scaler {A}. Arguments sc_center {A}. Arguments sc_scale {A}.
Arguments sc_trimming {A}. Arguments a_col_loc {A}. Arguments a_center {A}.
Arguments a_col_sca {A}. Arguments a_scale {A}. Arguments a_datas {A}. Arguments a_datans {A}.

Section Robcent.
  Context {A : Type} `{Num A}.
  Open Scope num_scope.
  Variable env : prep_env A.

  (** robcent.py:95-102 [VersatileScaler.__init__] *)
  Definition new_scaler (c : centre_opt A) (s : scale_opt A) (t : A) : scaler A :=
    mk_scaler c s t None None None None None None.

  (** :114-117,131-134: the location estimate *)
  Definition location (c : centre_opt A) (t : A) (X : mat A) : res (vec A) :=
    match c with
    | CMean => mean X t
    | CMedian => Ok (median X)
    | CL1median => Ok (l1median (env_l1opt env) X)
    | CKstepLTS => Ok (kstepLTS (env_l1opt env) 5 (nlit 1 10000000000) X)
    | CNone => Ok (repeat n0 (ncols X))
    | CBad => Err NameError
    | CUser f => f X t
    end.

  (** :119-122,141-144: the scale estimate; scaleTau2 with its defaults
      c1=4.5, c2=3, consistency=True *)
  Definition scale_est (s : scale_opt A) (t : A) (X : mat A) : res (vec A) :=
    match s with
    | SStd => std X t
    | SMad => Ok (mad X)
    | STau2 => Ok (scaleTau2 (env_es2 env) (nlit 9 2) (nnat 3) true false X)
    | SNone => Ok (repeat n1 (ncols X))
    | SBad => Err NameError
    | SUser f => f X t
    end.

  Definition is_bad (c : centre_opt A) (s : scale_opt A) : bool :=
    match c, s with CBad, _ | _, SBad => true | _, _ => false end.

  (** :104-149 [fit].  Attributes are set as soon as they are computed: a
      failing scale estimate leaves the new location in place. *)
  Definition sc_fit (st : scaler A) (x : arr A) : scaler A * res unit :=
    let X := check_input x in
    match check_trimming (sc_trimming st) with
    | Err e => (st, Err e)
    | Ok _ =>
      if is_bad (sc_center st) (sc_scale st) then (st, Err NameError) else
      match location (sc_center st) (sc_trimming st) X with
      | Err e => (st, Err e)
      | Ok m =>
          let st1 := mk_scaler (sc_center st) (sc_scale st) (sc_trimming st)
                       (Some m) (Some m) (a_col_sca st) (a_scale st)
                       (a_datas st) (a_datans st) in
          match scale_est (sc_scale st) (sc_trimming st) X with
          | Err e => (st1, Err e)
          | Ok s =>
              (mk_scaler (sc_center st) (sc_scale st) (sc_trimming st)
                 (Some m) (Some m) (Some s) (Some s)
                 (a_datas st) (a_datans st), Ok tt)
          end
      end
    end.

  Definition set_datas (st : scaler A) (d : mat A) : scaler A :=
    mk_scaler (sc_center st) (sc_scale st) (sc_trimming st) (a_col_loc st)
      (a_center st) (a_col_sca st) (a_scale st) (Some d) (a_datans st).
  Definition set_datans (st : scaler A) (d : mat A) : scaler A :=
    mk_scaler (sc_center st) (sc_scale st) (sc_trimming st) (a_col_loc st)
      (a_center st) (a_col_sca st) (a_scale st) (a_datas st) (Some d).

  (** :151-162 [transform] *)
  Definition sc_transform (st : scaler A) (x : arr A) : scaler A * res (mat A) :=
    match a_center st, a_scale st with
    | Some m, Some s =>
        match scale_data (check_input x) m s with
        | Ok Xs => (set_datas st Xs, Ok Xs)
        | Err e => (st, Err e)
        end
    | _, _ => (st, Err NotFittedError)
    end.

  (** :164-174 [predict]; a missing attribute is an AttributeError *)
  Definition sc_predict (st : scaler A) (x : arr A) : scaler A * res (mat A) :=
    match a_col_loc st, a_col_sca st with
    | Some m, Some s =>
        match scale_data (check_input x) m s with
        | Ok Xs => (set_datans st Xs, Ok Xs)
        | Err e => (st, Err e)
        end
    | _, _ => (st, Err AttributeError)
    end.

  (** :176-184 [fit_transform] *)
  Definition sc_fit_transform (st : scaler A) (x : arr A) : scaler A * res (mat A) :=
    match sc_fit st x with
    | (st1, Err e) => (st1, Err e)
    | (st1, Ok _) =>
        match sc_transform st1 x with
        | (st2, Err e) => (st2, Err e)
        | (st2, Ok _) =>
            match a_datas st2 with
            | Some d => (st2, Ok d)
            | None => (st2, Err AttributeError)
            end
        end
    end.

  (** numpy broadcasting of an n x p matrix with a vector: equal lengths, a
      vector of length one, or a one-column matrix *)
  Definition bc_rows (f : A -> A -> A) (X : mat A) (v : vec A) : res (mat A) :=
    if (length v =? ncols X)%nat then Ok (rows_op f X v)
    else if (length v =? 1)%nat then Ok (map (map (fun x => f x (nth 0 v n0))) X)
    else if (ncols X =? 1)%nat then Ok (map (fun r => map (fun y => f (nth 0 r n0) y) v) X)
    else Err ValueError.

  (** :186-197 [inverse_transform]; [None] argument uses the stored data *)
  Definition sc_inverse_transform (st : scaler A) (x : option (arr A)) : scaler A * res (mat A) :=
    match a_center st, a_scale st with
    | Some m, Some s =>
        match (match x with
               | Some x => Ok (check_input x)
               | None => match a_datas st with Some d => Ok d | None => Err AttributeError end
               end) with
        | Err e => (st, Err e)
        | Ok Xs => (st, bind (bc_rows nmul Xs s) (fun Y => bc_rows nadd Y m))
        end
    | _, _ => (st, Err NotFittedError)
    end.

  (** sklearn's [set_params] restricted to valid names *)
  Definition sc_set_params (st : scaler A) (c : option (centre_opt A))
      (s : option (scale_opt A)) (t : option A) : scaler A :=
    mk_scaler (match c with Some c => c | None => sc_center st end)
      (match s with Some s => s | None => sc_scale st end)
      (match t with Some t => t | None => sc_trimming st end)
      (a_col_loc st) (a_center st) (a_col_sca st) (a_scale st) (a_datas st) (a_datans st).

  (** the public operations of a scaler, for histories *)
  Inductive sc_op : Type :=
  | OpFit (x : arr A) | OpTransform (x : arr A) | OpPredict (x : arr A)
  | OpFitTransform (x : arr A) | OpInverse (x : option (arr A))
  | OpSetParams (c : option (centre_opt A)) (s : option (scale_opt A)) (t : option A).

  Definition sc_step (st : scaler A) (o : sc_op) : scaler A :=
    match o with
    | OpFit x => fst (sc_fit st x)
    | OpTransform x => fst (sc_transform st x)
    | OpPredict x => fst (sc_predict st x)
    | OpFitTransform x => fst (sc_fit_transform st x)
    | OpInverse x => fst (sc_inverse_transform st x)
    | OpSetParams c s t => sc_set_params st c s t
    end.

  Definition sc_run (st : scaler A) (os : list sc_op) : scaler A := fold_left sc_step os st.

  (** :204-211 [versatile_scale] *)
  Definition versatile_scale (c : centre_opt A) (s : scale_opt A) (t : A) (x : arr A) : res (mat A) :=
    snd (sc_fit_transform (new_scaler c s t) x).

  (** :214-325 [Wrapper]: always median/mad with trimming 0 (:236-243).  State:
      the fitted location and scale.  [transform] (:292-303) and [predict]
      (:305-315) pass them to [wrap]. *)
  Definition wrapper_fit (x : arr A) : vec A * vec A :=
    (median (check_input x), mad (check_input x)).
  Definition wrapper_transform (st : vec A * vec A) (x : arr A) : res (mat A) :=
    wrap (check_input x) (fst st) (snd st).
  Definition wrapper_predict (st : vec A * vec A) (x : arr A) : res (mat A) :=
    wrap (check_input x) (fst st) (snd st).
End Robcent.
Arguments OpFit {A}. Arguments OpTransform {A}. Arguments OpPredict {A}.
Arguments OpFitTransform {A}. Arguments OpInverse {A}. Arguments OpSetParams {A}.
