(** Property theorems C72 and C121-C124: the parameter interface of capi, ppdire and
    sudire. *)

From Coq Require Import String List Arith ZArith Bool Lia.
Import List. Import ListNotations.
From Verif Require Import Err M_Params S_Params L_Params.
Open Scope string_scope.

(** concrete cases: a capi object (address 0), a ppdire object with it as projection
    index (1), a ppdire object with a class as projection index (2), a
    sudire object (3) *)
Definition call0 (f kw : val) : res val := match f with WClass n => Ok (WOther (100 + n)) | _ => Err TypeError end.
Definition made (r : res pobj) : pobj := match r with Ok o => o | Err _ => mk_pobj Capi [] end.
Definition ca0 : pobj := made (construct call0 Capi [("max_degree", WInt 3)]).
Definition pp1 : pobj := made (construct call0 Ppdire [("projection_index", WObj 0); ("n_components", WInt 2)]).
Definition pp2 : pobj := made (construct call0 Ppdire [("center", WStr "median"); ("projection_index", WClass 0)]).
Definition su3 : pobj := made (construct call0 Sudire [("sudiremeth", WStr "save"); ("n_slices", WInt 4)]).
Definition heap0 : heap := [ca0; pp1; pp2; su3].
Ltac nodups := repeat (constructor; [cbn; intuition discriminate|]); constructor.

(* ------------------------------------------------------------------ *)
(** C72: what was set is returned, everything else is as before *)
Theorem C72_set_get : forall h a o params, nth_error h a = Some o -> NoDup (map fst params) -> (forall k, In k (map fst params) -> In k (names_of o)) ->
  exists h' o', set_params h a params = (h', Ok tt) /\ length h' = length h /\ (forall b, b <> a -> nth_error h' b = nth_error h b) /\
    nth_error h' a = Some o' /\ po_cls o' = po_cls o /\
    (forall k, In k (names_of o) -> aget k (get_params o') = match aget k params with Some v => Some v | None => aget k (get_params o) end) /\
    (forall k, ~ In k (map fst params) -> aget k (po_attrs o') = aget k (po_attrs o)).
Proof. exact set_flat. Qed.
Print Assumptions C72_set_get.
Example C72_set_get_case : nth_error heap0 3 = Some su3 /\ NoDup (map fst [("n_slices", WInt 8); ("verbose", WBool false)]) /\
  (forall k, In k (map fst [("n_slices", WInt 8); ("verbose", WBool false)]) -> In k (names_of su3)) /\
  exists o', nth_error (fst (set_params heap0 3 [("n_slices", WInt 8); ("verbose", WBool false)])) 3 = Some o' /\ aget "n_slices" (get_params o') = Some (WInt 8) /\ aget "n_components" (get_params o') = Some (WInt 2).
Proof.
  split; [reflexivity|]. split; [nodups|]. split; [intros k [<-|[<-|[]]]; vm_compute; auto 25|].
  eexists. split; [vm_compute; reflexivity|]. vm_compute. auto.
Qed.
(** an unknown name raises ValueError; the names before it have been set, those after
    it have not: the call is not atomic *)
Theorem C72_unknown_atomic_refuted : forall h a o pre key v post, nth_error h a = Some o -> NoDup (map fst pre) ->
  (forall k, In k (map fst pre) -> In k (names_of o)) ->
  (forall k, In k (names_of o) -> key <> k /\ forall s, key <> k ++ "__" ++ s) ->
  exists h' o', set_params h a (pre ++ (key, v) :: post)%list = (h', Err ValueError) /\ (forall b, b <> a -> nth_error h' b = nth_error h b) /\
    nth_error h' a = Some o' /\ po_cls o' = po_cls o /\
    (forall k, In k (names_of o) -> aget k (get_params o') = match aget k pre with Some v => Some v | None => aget k (get_params o) end).
Proof. exact set_unknown. Qed.
Print Assumptions C72_unknown_atomic_refuted.
Example C72_unknown_case : nth_error heap0 1 = Some pp1 /\ (forall k, In k (map fst [("alpha", WInt 5)]) -> In k (names_of pp1)) /\
  (forall k, In k (names_of pp1) -> "ncomp" <> k /\ forall s, "ncomp" <> k ++ "__" ++ s) /\
  exists h' o', set_params heap0 1 [("alpha", WInt 5); ("ncomp", WInt 1); ("copy", WBool false)] = (h', Err ValueError) /\ nth_error h' 1 = Some o' /\
    aget "alpha" (get_params pp1) = Some (WInt 1) /\ aget "alpha" (get_params o') = Some (WInt 5) /\ aget "copy" (get_params o') = Some (WBool true).
Proof.
  split; [reflexivity|]. split; [intros k [<-|[]]; vm_compute; auto 25|]. split.
  - intros k Hk. cbn in Hk. repeat (destruct Hk as [<-|Hk]; [split; [discriminate|intros s; cbn; discriminate]|]). destruct Hk.
  - do 2 eexists. split; [vm_compute; reflexivity|]. split; [cbn; reflexivity|]. vm_compute. auto.
Qed.
(** names component__name set the parameters of an estimator that is a parameter itself *)
Theorem C72_nested : forall h a o a' o' k params, nth_error h a = Some o -> nth_error h a' = Some o' -> a <> a' -> In k (names_of o) -> getattr k (po_attrs o) = WObj a' ->
  NoDup (map fst params) -> aget k params = None -> (forall key, In key (map fst params) -> In key (names_of o) \/ exists s, In s (names_of o') /\ key = k ++ "__" ++ s) ->
  exists h1 o1 o1', set_params h a params = (h1, Ok tt) /\ nth_error h1 a = Some o1 /\ nth_error h1 a' = Some o1' /\ po_cls o1 = po_cls o /\ po_cls o1' = po_cls o' /\
    (forall b, b <> a -> b <> a' -> nth_error h1 b = nth_error h b) /\
    (forall n, In n (names_of o) -> aget n (get_params o1) = match aget n params with Some v => Some v | None => aget n (get_params o) end) /\
    (forall n, In n (names_of o') -> aget n (get_params o1') = match aget (k ++ "__" ++ n) params with Some v => Some v | None => aget n (get_params o') end).
Proof. exact set_mixed. Qed.
Print Assumptions C72_nested.
Example C72_nested_case : nth_error heap0 1 = Some pp1 /\ nth_error heap0 0 = Some ca0 /\ getattr "projection_index" (po_attrs pp1) = WObj 0 /\
  (forall key, In key (map fst [("projection_index__max_degree", WInt 4); ("alpha", WInt 7)]) -> In key (names_of pp1) \/ exists s, In s (names_of ca0) /\ key = "projection_index" ++ "__" ++ s) /\
  exists o1, nth_error (fst (set_params heap0 1 [("projection_index__max_degree", WInt 4); ("alpha", WInt 7)])) 0 = Some o1 /\ aget "max_degree" (get_params ca0) = Some (WInt 3) /\ aget "max_degree" (get_params o1) = Some (WInt 4).
Proof.
  split; [reflexivity|]. split; [reflexivity|]. split; [reflexivity|]. split.
  - intros key [<-|[<-|[]]]; [right; exists "max_degree"; split; [vm_compute; auto|reflexivity]|left; vm_compute; auto 25].
  - eexists. split; [vm_compute; reflexivity|]. vm_compute. auto.
Qed.
(** set_params with any keyword arguments on any heap returns or raises one of three
    exceptions *)
Theorem C72_exceptions : forall h a params h' e, set_params h a params = (h', Err e) -> e = ValueError \/ e = AttributeError \/ e = TypeError.
Proof. exact set_params_exn. Qed.
Print Assumptions C72_exceptions.
Example C72_exceptions_case : snd (set_params heap0 1 [("nothing", WNone)]) = Err ValueError /\ snd (set_params heap0 1 [("center__x", WNone)]) = Err AttributeError /\
  snd (set_params heap0 2 [("projection_index__x", WNone)]) = Err TypeError.
Proof. vm_compute. auto. Qed.

(* ------------------------------------------------------------------ *)
(** C121: get_params(deep=True) fails as soon as a parameter is a class: always for
    ppdire with dicomo or capi as projection index, and for capi with its own default *)
Theorem C121_deep_refuted : forall h o k c, In k (names_of o) -> getattr k (po_attrs o) = WClass c -> get_params_deep h o = Err TypeError.
Proof. exact deep_class. Qed.
Print Assumptions C121_deep_refuted.
Theorem C121_deep : forall h o, (forall k, In k (names_of o) -> forall c, getattr k (po_attrs o) <> WClass c) ->
  exists d, get_params_deep h o = Ok d /\ (forall k, In k (names_of o) -> aget k d = aget k (get_params o)) /\
    (forall k a o' n, In k (names_of o) -> getattr k (po_attrs o) = WObj a -> nth_error h a = Some o' -> In n (names_of o') -> aget (k ++ "__" ++ n) d = aget n (get_params o')).
Proof. exact deep_ok. Qed.
Print Assumptions C121_deep.
Example C121_case : In "projection_index" (names_of pp2) /\ getattr "projection_index" (po_attrs pp2) = WClass 0 /\ get_params_deep heap0 ca0 = Err TypeError /\
  (forall k, In k (names_of pp1) -> forall c, getattr k (po_attrs pp1) <> WClass c) /\
  (exists d, get_params_deep heap0 pp1 = Ok d /\ aget "projection_index__max_degree" d = Some (WInt 3)).
Proof.
  split; [vm_compute; auto|]. split; [reflexivity|]. split; [reflexivity|]. split.
  - intros k Hk c. cbn in Hk. repeat (destruct Hk as [<-|Hk]; [vm_compute; discriminate|]). destruct Hk.
  - eexists. split; [vm_compute; reflexivity|]. reflexivity.
Qed.

(* ------------------------------------------------------------------ *)
(** C122: get_params returns what the constructor was given; capi forgets centring *)
Theorem C122_constructor : forall call c args o, construct call c args = Ok o -> po_cls o = c /\
  forall k, In k (names_of o) -> aget k (get_params o) = Some (if match c with Capi => k =? "centring" | _ => false end then WNone else given c args k).
Proof. exact construct_get. Qed.
Print Assumptions C122_constructor.
Example C122_case : construct call0 Sudire [("sudiremeth", WStr "save"); ("n_slices", WInt 4)] = Ok su3 /\ aget "n_slices" (get_params su3) = Some (WInt 4) /\
  (exists o, construct call0 Capi [("centring", WBool true)] = Ok o /\ aget "centring" (get_params o) = Some WNone).
Proof. split; [reflexivity|]. split; [reflexivity|]. eexists. split; [vm_compute; reflexivity|reflexivity]. Qed.

(* ------------------------------------------------------------------ *)
(** C123: an object can be rebuilt from its parameters, as cross-validation does; not
    any more after set_params with values the constructor refuses *)
Theorem C123_rebuild : forall call c args o, construct call c args = Ok o -> exists o', construct call c (get_params o) = Ok o' /\ get_params o' = get_params o.
Proof. exact rebuild. Qed.
Print Assumptions C123_rebuild.
Theorem C123_unchecked_refuted : forall call h a o k v, nth_error h a = Some o ->
  match po_cls o with
  | Capi => k = "max_degree" /\ exists z, v = WInt z /\ (4 < z)%Z
  | Ppdire => k = "center" /\ ~ documented_centre v
  | Sudire => (k = "center" /\ ~ documented_centre v) \/ (k = "sudiremeth" /\ ~ documented_method v)
  end ->
  exists h' o', set_params h a [(k, v)] = (h', Ok tt) /\ nth_error h' a = Some o' /\ aget k (get_params o') = Some v /\ exists e, construct call (po_cls o') (get_params o') = Err e.
Proof. exact set_unchecked. Qed.
Print Assumptions C123_unchecked_refuted.
Example C123_case : construct call0 Capi [("max_degree", WInt 3)] = Ok ca0 /\ nth_error heap0 3 = Some su3 /\ po_cls su3 = Sudire /\ ~ documented_method (WStr "pca") /\ ~ documented_centre (WInt 0) /\ documented_method (WFun 0).
Proof.
  split; [reflexivity|]. split; [reflexivity|]. split; [reflexivity|]. split; [|split; [intros [H|H]; discriminate|right; left; eauto]].
  intros [(s & E & H)|[[k E]|[k E]]]; try discriminate. injection E as <-. cbn in H. intuition discriminate.
Qed.
(** the constructor accepts no other values *)
Theorem C123_accepts : forall call args o c, construct call c args = Ok o ->
  (c <> Capi -> documented_centre (given c args "center")) /\ (c = Sudire -> documented_method (given c args "sudiremeth")).
Proof.
  intros call args o c E. destruct (construct_refuses call args) as [_ [R2 R3]]. split.
  - intros Hc. apply centres_spec, not_false_iff_true. intros H. destruct (R2 c Hc H) as [e He]. congruence.
  - intros ->. apply methods_spec, not_false_iff_true. intros H. destruct (R3 H) as [e He]. congruence.
Qed.
Print Assumptions C123_accepts.

(* ------------------------------------------------------------------ *)
(** C124: set_params only ever touches parameters: what a constructor derived from them
    (capi's moment object) is never brought up to date *)
Theorem C124_derived_refuted : forall h a params h' r, set_params h a params = (h', r) -> kept h h'.
Proof. exact set_params_kept. Qed.
Print Assumptions C124_derived_refuted.
Example C124_case : ~ In "most" (names_of ca0) /\ getattr "most" (po_attrs ca0) = WOther 100 /\
  exists o', nth_error (fst (set_params heap0 0 [("projection_index", WClass 7)])) 0 = Some o' /\ getattr "projection_index" (po_attrs o') = WClass 7 /\ getattr "most" (po_attrs o') = WOther 100 /\
    exists o2, construct call0 Capi (get_params o') = Ok o2 /\ getattr "most" (po_attrs o2) = WOther 107.
Proof.
  split; [vm_compute; intuition discriminate|]. split; [reflexivity|]. eexists. split; [vm_compute; reflexivity|]. split; [reflexivity|]. split; [reflexivity|]. eexists. split; [vm_compute; reflexivity|reflexivity].
Qed.
