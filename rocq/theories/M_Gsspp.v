(** Model of src/direpack/preprocessing/_gsspp_utils.py and gsspp.py *)

From Coq Require Import List Arith ZArith Bool.
Import ListNotations.
From Verif Require Import Num Err Vec M_Utils M_Preproc M_Robcent.

Section Gsspp.
  Context {A : Type} `{Num A}.
  Open Scope num_scope.

  (** The distances [dd] are an n x 1 array in the code (_norms keeps the
      second dimension); here a vector.  [np.sort(v)[int(floor((n+p+1)/2))-1]],
      an IndexError if the position does not exist (lines 25, 56, 75-76, ...) *)
  Definition hpos (n p : nat) : nat := (n + p + 1) / 2 - 1.
  Definition hstat (v : vec A) (p n : nat) : res A :=
    match nth_error (sort v) (hpos n p) with
    | Some h => Ok h
    | None => Err IndexError
    end.

  (** _gsspp_utils.py:15-29 [quad].  [xi] is ones with the entries at
      [where(dd > d_hmed)] overwritten; as the condition reads [dd], which is
      not changed, this is a map. *)
  Definition quad (dd : vec A) (p n : nat) : res (vec A) :=
    bind (hstat dd p n) (fun h =>
    Ok (map (fun d => if h <?! d then (n1 /! nsqr d) *! nsqr h else n1) dd)).

  (** :31-44 [ss], prec = 1e-10 *)
  Definition ss_prec : A := nlit 1 10000000000.
  Definition ss (dd : vec A) (p n : nat) : res (vec A) :=
    Ok (map (fun d => n1 /! nmax d ss_prec) dd).

  (** :46-60 [winsor] *)
  Definition winsor (dd : vec A) (p n : nat) : res (vec A) :=
    bind (hstat dd p n) (fun h =>
    Ok (map (fun d => if h <?! d then (n1 /! d) *! h else n1) dd)).

  (** Wilson-Hilferty powers: [np.power(dd, 2/3)] and [np.power(v, 3/2)] *)
  Definition pow23 (x : A) : A := npowr x (nlit 2 3).
  Definition pow32 (x : A) : A := npowr x (nlit 3 2).

  (** :62-80 [ball] *)
  Definition ball (dd : vec A) (p n : nat) : res (vec A) :=
    let dWH := map pow23 dd in
    bind (hstat dWH p n) (fun hw =>
    let h := pow32 hw in
    Ok (map (fun d => if h <?! d then n0 else n1) dd)).

  (** :83-104 [shell] *)
  Definition shell (dd : vec A) (p n : nat) : res (vec A) :=
    let dWH := map pow23 dd in
    bind (hstat dWH p n) (fun hmed =>
    bind (hstat (map (fun d => nabs (d -! hmed)) dWH) p n) (fun hmad =>
    let cutoff1 := pow32 (nmax n0 (hmed -! hmad)) in
    let cutoff2 := pow32 (hmed +! hmad) in
    Ok (map (fun d => if cutoff2 <?! d then n0
                      else if d <?! cutoff1 then n0 else n1) dd))).

  (** :107-128 [linear_redescending] *)
  Definition linear_redescending (dd : vec A) (p n : nat) : res (vec A) :=
    let dWH := map pow23 dd in
    bind (hstat dWH p n) (fun hmed =>
    bind (hstat (map (fun d => nabs (d -! hmed)) dWH) p n) (fun hmad =>
    let d_hmed := pow32 hmed in
    let cutoff := pow32 (hmed +! nlit 14826 10000 *! hmad) in
    Ok (map (fun d => if cutoff <?! d then n0
                      else if (d_hmed <?! d) && (d <=?! cutoff)
                           then n1 -! (d -! d_hmed) /! (cutoff -! d_hmed)
                           else n1) dd))).

  (** a radial function as passed by the caller: a documented name (string or
      the function itself), or another callable *)
  Inductive radial : Type :=
  | Quad | SS | Winsor | Ball | Shell | LinRed
  | RUser (f : vec A -> nat -> nat -> res (vec A)).
  Definition radial_fun (f : radial) : vec A -> nat -> nat -> res (vec A) :=
    match f with
    | Quad => quad | SS => ss | Winsor => winsor | Ball => ball | Shell => shell
    | LinRed => linear_redescending | RUser f => f
    end.
  (** the argument [fun]: a string (evaluated by name; a name that does not
      exist is a NameError) or a callable *)
  Inductive fun_arg : Type := FStr (f : radial) | FBadStr | FCall (f : radial).

  (** :131-135 [_norms] *)
  Definition norms (X : mat A) : vec A := map vnorm X.

  (** :138-142 [_gsspp]: each row is multiplied by its radial factor.  (Only
      user functions can return another length than n; numpy's broadcasting of
      those is not modelled: rows beyond the shorter length are dropped.) *)
  Definition row_mul (X : mat A) (xi : vec A) : mat A :=
    map2 (fun r f => map (fun x => x *! f) r) X xi.
  Definition gsspp_ (X : mat A) (p n : nat) (f : radial) : res (mat A) :=
    bind (radial_fun f (norms X) p n) (fun xi => Ok (row_mul X xi)).

  (** :144-148 [_spatial_sign] *)
  Definition spatial_sign (X : mat A) : mat A :=
    map (fun r => map (fun x => x /! vnorm r) r) X.

  Variable env : prep_env A.

  (** gsspp.py:47-86 [GenSpatialSignPreProcessor]; attributes [gss_] and [Xm_]
      (the centring object is not kept in the model: it is not used again) *)
  Record gss : Type := mk_gss {
    g_center : centre_opt A;
    g_fun : fun_arg;
    g_gss : option (vec A);
    g_Xm : option (mat A)
  }.
  Definition new_gss (c : centre_opt A) (f : fun_arg) : gss := mk_gss c f None None.

  (** gsspp.py:52-69 [fit] *)
  Definition gss_fit (st : gss) (x : arr A) : gss * res unit :=
    let X := check_input x in
    let n := length X in
    let p := ncols X in
    match g_fun st with
    | FBadStr => (st, Err NameError)
    | FStr f | FCall f =>
        match bind (versatile_scale env (g_center st) SNone n0 (A2 X)) (fun Xm =>
              bind (radial_fun f (norms Xm) p n) (fun xi => Ok (xi, Xm))) with
        | Ok (xi, Xm) => (mk_gss (g_center st) (g_fun st) (Some xi) (Some Xm), Ok tt)
        | Err e => (st, Err e)
        end
    end.

  (** gsspp.py:71-80 [transform]: the argument is not used *)
  Definition gss_transform (st : gss) (x : arr A) : res (mat A) :=
    match g_gss st, g_Xm st with
    | Some xi, Some Xm => Ok (row_mul Xm xi)
    | _, _ => Err NotFittedError
    end.

  (** gsspp.py:82-86 [fit_transform] *)
  Definition gss_fit_transform (st : gss) (x : arr A) : gss * res (mat A) :=
    match gss_fit st x with
    | (st1, Ok _) => (st1, gss_transform st1 x)
    | (st1, Err e) => (st1, Err e)
    end.

  (** gsspp.py:91-123 [gen_ss_pp] with string arguments.  The string "None"
      evaluates to the object None, which differs from the string "None" (line
      120) and is then called as a location estimator: TypeError. *)
  Definition gen_ss_pp (c : centre_opt A) (f : fun_arg) (x : arr A) : res (mat A) :=
    match c, f with
    | CBad, _ | _, FBadStr => Err NameError
    | CNone, _ => Err TypeError
    | _, FStr f | _, FCall f =>
        let X := check_input x in
        let n := length X in
        let p := ncols X in
        bind (versatile_scale env c SNone n0 (A2 X)) (fun Xm => gsspp_ Xm p n f)
    end.

  (** numpy's [*] of two matrices: equal shapes or broadcasting of a single
      row / column *)
  Definition bcast (a b : nat) : option nat :=
    if (a =? b)%nat then Some a
    else if (a =? 1)%nat then Some b
    else if (b =? 1)%nat then Some a else None.
  Definition elementwise (f : A -> A -> A) (X Y : mat A) : res (mat A) :=
    match bcast (length X) (length Y), bcast (ncols X) (ncols Y) with
    | Some n, Some p =>
        let pick (k : nat) (i : nat) := if (k =? 1)%nat then O else i in
        Ok (map (fun i => map (fun j =>
               f (mget X (pick (length X) i) (pick (ncols X) j))
                 (mget Y (pick (length Y) i) (pick (ncols Y) j))) (seq 0 p)) (seq 0 n))
    | _, _ => Err ValueError
    end.

  (** gsspp.py:126-155 [gen_ss_covmat].  [fun] is not evaluated: a string is
      not callable (TypeError).  [Xgss.T*Xgss/n] is an element-wise product. *)
  Definition gen_ss_covmat (c : centre_opt A) (f : fun_arg) (x : arr A) : res (mat A) :=
    let X := check_input x in
    let n := length X in
    let p := ncols X in
    bind (versatile_scale env c SNone n0 (A2 X)) (fun Xm =>
    match f with
    | FCall f =>
        bind (gsspp_ Xm p n f) (fun Z =>
        bind (elementwise nmul (transpose Z) Z) (fun W =>
        Ok (map (map (fun v => v /! nnat n)) W)))
    | _ => Err TypeError
    end).
End Gsspp.
Arguments Quad {A}. Arguments SS {A}. Arguments Winsor {A}. Arguments Ball {A}.
Arguments Shell {A}. Arguments LinRed {A}. Arguments RUser {A}.
Arguments FStr {A}. Arguments FBadStr {A}. Arguments FCall {A}.
Arguments gss : clear implicits.
Arguments mk_gss {A}. Arguments g_center {A}. Arguments g_fun {A}.
Arguments g_gss {A}. Arguments g_Xm {A}.
