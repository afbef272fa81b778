(** Model of the parameter interface shared by capi, ppdire and sudire:
    __init__, _get_param_names, get_params and set_params
    (src/direpack/ppdire/capi.py, ppdire/ppdire.py, sudire/sudire.py), on a heap of
    objects, since parameters can be estimators themselves. *)

From Coq Require Import String Ascii List Arith ZArith Bool.
Import List. Import ListNotations.
From Verif Require Import Err Vec M_Utils.
Open Scope string_scope.

(** Values: None, bool, int, str, a function, a class, an instance of capi, ppdire
    or sudire (its address), anything else (identified by a number) *)
Inductive val : Type := WNone | WBool (b : bool) | WInt (z : Z) | WStr (s : string) | WFun (k : nat) | WClass (k : nat) | WObj (a : nat) | WOther (k : nat).

Inductive cls : Type := Capi | Ppdire | Sudire.

(** keyword arguments and attributes: insertion-ordered dictionaries with str keys *)
Definition attrs : Type := list (string * val).
Fixpoint aget (k : string) (d : attrs) : option val :=
  match d with [] => None | (k', v) :: d' => if k =? k' then Some v else aget k d' end.
Fixpoint aset (k : string) (v : val) (d : attrs) : attrs :=
  match d with [] => [(k, v)] | (k', v') :: d' => if k =? k' then (k', v) :: d' else (k', v') :: aset k v d' end.
(** getattr(self, k, None) (class attributes have other names) *)
Definition getattr (k : string) (d : attrs) : val := match aget k d with Some v => v | None => WNone end.

Record pobj : Type := mk_pobj { po_cls : cls; po_attrs : attrs }.
Definition heap : Type := list pobj.

(** capi.py:55-64, ppdire.py:163-181, sudire.py:140-161: the parameters and their
    default values; None: required.  Shared default objects ([WOther]) keep
    their identity over all constructions. *)
Definition signature (c : cls) : list (string * option val) :=
  match c with
  | Capi => [("max_degree", Some (WInt 2)); ("projection_index", Some (WClass 0)); ("pi_arguments", Some (WOther 0)); ("weights", Some (WOther 1));
             ("centring", Some (WBool false)); ("scaling", Some (WBool true)); ("options", Some (WStr "all"))]
  | Ppdire => [("projection_index", None); ("pi_arguments", Some (WOther 2)); ("n_components", Some (WInt 1)); ("trimming", Some (WInt 0)); ("alpha", Some (WInt 1));
             ("optimizer", Some (WStr "SLSQP")); ("optimizer_options", Some (WOther 3)); ("optimizer_constraints", Some WNone); ("regopt", Some (WStr "OLS"));
             ("center", Some (WStr "mean")); ("center_data", Some (WBool true)); ("scale_data", Some (WBool true)); ("whiten_data", Some (WBool false));
             ("square_pi", Some (WBool false)); ("compression", Some (WBool false)); ("copy", Some (WBool true)); ("verbose", Some (WBool true));
             ("return_scaling_object", Some (WBool true))]
  | Sudire => [("sudiremeth", Some (WStr "dcov-sdr")); ("n_components", Some (WInt 2)); ("trimming", Some (WInt 0)); ("optimizer_options", Some (WOther 4));
             ("optimizer_constraints", Some WNone); ("optimizer_arguments", Some WNone); ("optimizer_start", Some WNone); ("center_data", Some (WBool true));
             ("center", Some (WStr "mean")); ("scale_data", Some (WBool true)); ("whiten_data", Some (WBool false)); ("compression", Some (WBool false));
             ("n_slices", Some (WInt 6)); ("dmetric", Some (WStr "euclidean")); ("fit_ols", Some (WBool true)); ("copy", Some (WBool true));
             ("response_type", Some (WStr "continuous")); ("verbose", Some (WBool true)); ("return_scaling_object", Some (WBool true))]
  end.

(** capi.py:108-137, ppdire.py:809-834, sudire.py:651-679 _get_param_names: the names
    in the signature, sorted *)
Fixpoint insert_name (s : string) (l : list string) : list string :=
  match l with [] => [s] | t :: l' => if String.leb s t then s :: l else t :: insert_name s l' end.
Fixpoint sort_names (l : list string) : list string := match l with [] => [] | s :: l' => insert_name s (sort_names l') end.
Definition param_names (c : cls) : list string := sort_names (map fst (signature c)).

(** Binding keyword arguments to a signature (Python call): an unexpected or
    missing argument is a TypeError *)
Definition bind_args (c : cls) (args : attrs) : res attrs :=
  if forallb (fun kv => existsb (fun s => fst kv =? fst s) (signature c)) args then
    mapM (fun s => match aget (fst s) args with
                   | Some v => Ok (fst s, v)
                   | None => match snd s with Some v => Ok (fst s, v) | None => Err TypeError end
                   end) (signature c)
  else Err TypeError.

Definition val_eqb_str (v : val) (s : string) : bool := match v with WStr t => t =? s | _ => false end.
(** callable(v): functions and classes (instances of the three classes are not) *)
Definition callable (v : val) : bool := match v with WFun _ | WClass _ => true | _ => false end.
Definition centres_ok (v : val) : bool := existsb (val_eqb_str v) ["mean"; "median"].
Definition methods_ok (v : val) : bool :=
  existsb (val_eqb_str v) ["sir"; "save"; "dr"; "dcov-sdr"; "bcov-sdr"; "mdd-sdr"; "phd"; "iht"] || callable v.
(** v > 4: a TypeError unless v is a number (floats not modelled); True counts as 1 *)
Definition above_four (v : val) : res bool :=
  match v with WInt z => Ok (4 <? z)%Z | WBool _ => Ok false | _ => Err TypeError end.

(** the constructors.  [call f kw]: the object self.projection_index called with the keyword
    arguments self.pi_arguments *)
Definition construct (call : val -> val -> res val) (c : cls) (args : attrs) : res pobj :=
  bind (bind_args c args) (fun b =>
  match c with
  | Capi =>                                                            (* capi.py:65-74; centring is not stored *)
      let g k := getattr k b in
      bind (call (g "projection_index") (g "pi_arguments")) (fun most =>
      bind (above_four (g "max_degree")) (fun big =>
      if big then Err ValueError else
      Ok (mk_pobj Capi [("max_degree", g "max_degree"); ("projection_index", g "projection_index"); ("pi_arguments", g "pi_arguments"); ("weights", g "weights");
                        ("most", most); ("scaling", g "scaling"); ("options", g "options"); ("capi_index_", WNone)])))
  | Ppdire =>                                                          (* ppdire.py:182-208 *)
      if centres_ok (getattr "center" b) then Ok (mk_pobj Ppdire (b ++ [("constraint", WStr "norm"); ("optrange", WOther 5); ("licenter", WOther 6)])%list) else Err ValueError
  | Sudire =>                                                          (* sudire.py:162-206 *)
      if centres_ok (getattr "center" b) then
        if methods_ok (getattr "sudiremeth" b) then Ok (mk_pobj Sudire (b ++ [("licenter", WOther 7); ("limeths", WOther 8)])%list) else Err ValueError
      else Err ValueError
  end).

(** get_params(deep=False) (capi.py:139-160, ppdire.py:836-857, sudire.py:681-702) *)
Definition get_params (o : pobj) : attrs := map (fun k => (k, getattr k (po_attrs o))) (param_names (po_cls o)).
(** get_params(deep=True): only instances of the three classes have sub-parameters
    here (a class also has a get_params attribute, but calling it without an
    instance is a TypeError) *)
Fixpoint aupdate (d e : attrs) : attrs := match e with [] => d | (k, v) :: e' => aupdate (aset k v d) e' end.
Definition get_params_deep (h : heap) (o : pobj) : res attrs :=
  fold_left (fun acc k =>
    bind acc (fun out =>
    let v := getattr k (po_attrs o) in
    bind (match v with
          | WObj a => match nth_error h a with
                      | Some o' => Ok (aupdate out (map (fun kv => (k ++ "__" ++ fst kv, snd kv)) (get_params o')))
                      | None => Ok out
                      end
          | WClass _ => Err TypeError
          | _ => Ok out
          end) (fun out' => Ok (aset k v out')))) (param_names (po_cls o)) (Ok []).

(** key.partition("__"): the part before, whether the separator occurs, the part after *)
Fixpoint partition2 (s : string) : string * bool * string :=
  match s with
  | EmptyString => ("", false, "")
  | String a s' =>
      match s' with
      | String b s'' => if (a =? "_")%char && (b =? "_")%char then ("", true, s'')
                        else let '(k, d, r) := partition2 s' in (String a k, d, r)
      | EmptyString => (s, false, "")
      end
  end.

(** nested_params: a dictionary of dictionaries *)
Definition nested : Type := list (string * attrs).
Fixpoint nset (k sub : string) (v : val) (d : nested) : nested :=
  match d with
  | [] => [(k, [(sub, v)])]
  | (k', e) :: d' => if k =? k' then (k', aset sub v e) :: d' else (k', e) :: nset k sub v d'
  end.

Fixpoint hset (h : heap) (a : nat) (o : pobj) : heap :=
  match h, a with [], _ => [] | _ :: h', O => o :: h' | o' :: h', S a' => o' :: hset h' a' o end.
(** setattr(self, k, v) *)
Definition set_attr (h : heap) (a : nat) (k : string) (v : val) : heap :=
  match nth_error h a with Some o => hset h a (mk_pobj (po_cls o) (aset k v (po_attrs o))) | None => h end.

(** the first loop of set_params *)
Fixpoint sp_loop (h : heap) (a : nat) (valid : attrs) (nest : nested) (params : attrs) : heap * res (attrs * nested) :=
  match params with
  | [] => (h, Ok (valid, nest))
  | (key, value) :: params' =>
      let '(k, delim, sub) := partition2 key in
      if existsb (fun kv => k =? fst kv) valid then
        if delim then sp_loop h a valid (nset k sub value nest) params'
        else sp_loop (set_attr h a k value) a (aset k value valid) nest params'
      else (h, Err ValueError)
  end.

(** set_params (capi.py:162-195, ppdire.py:859-892, sudire.py:704-735).  A value without
    set_params is an AttributeError, a class a TypeError (missing self).  Other
    estimators as parameters are not modelled.  [fuel]: nested names get
    shorter, so that it is never used up (set_params_fuel in L_Params; else
    OverflowError here). *)
Fixpoint set_params_f (fuel : nat) (h : heap) (a : nat) (params : attrs) : heap * res unit :=
  match params with
  | [] => (h, Ok tt)
  | _ =>
      match nth_error h a with
      | None => (h, Err AttributeError)
      | Some o =>
          match sp_loop h a (get_params o) [] params with
          | (h1, Err e) => (h1, Err e)
          | (h1, Ok (valid, nest)) =>
              (fix go (l : nested) (h : heap) : heap * res unit :=
                 match l with
                 | [] => (h, Ok tt)
                 | (k, sub) :: l' =>
                     match getattr k valid with
                     | WObj a' =>
                         match fuel with
                         | O => (h, Err OverflowError)
                         | S fuel' =>
                             match set_params_f fuel' h a' sub with
                             | (h', Ok _) => go l' h'
                             | (h', Err e) => (h', Err e)
                             end
                         end
                     | WClass _ => (h, Err TypeError)
                     | _ => (h, Err AttributeError)
                     end
                 end) nest h1
          end
      end
  end.
Definition max_len (params : attrs) : nat := fold_right (fun kv m => Nat.max (String.length (fst kv)) m) 0 params.
Definition set_params (h : heap) (a : nat) (params : attrs) : heap * res unit := set_params_f (max_len params) h a params.
