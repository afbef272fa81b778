(** Model of src/direpack/ppdire/_ppdire_utils.py and src/direpack/ppdire/ppdire.py *)

From Coq Require Import String List Arith ZArith Bool.
Import List. Import ListNotations.
From Verif Require Import Num Err Vec M_Utils M_Preproc M_Robcent M_Dicomo M_Ipopt.

(** np.cos, np.sin, np.arcsin, np.arccos *)
Record trig (A : Type) : Type := mk_trig { t_cos : A -> A; t_sin : A -> A; t_asin : A -> A; t_acos : A -> A }.
Arguments mk_trig {A}. Arguments t_cos {A}. Arguments t_sin {A}. Arguments t_asin {A}. Arguments t_acos {A}.

(** ppdire's optimizer argument: 'grid', 'IPOPT', 'differential_evolution' or
    a method name of scipy.optimize.minimize *)
Inductive optim : Type := OGrid | OIpopt | ODiffEvol | OScipy (method : string).

(** The alphamat entry of the arguments of the grid planes: None, a tuple
    holding the matrix (ppdire.py:459 has a trailing comma) or the matrix *)
Inductive amat : Type := AmNone | AmTuple | AmArray.

(** The pi_arguments of the grid planes: ndir, optrange, alphamat, square_pi,
    the angles (_stop0c, _stop0s, _stop1c, _stop1s) and the arguments the
    projection index makes use of. *)
Record gargs (A : Type) : Type := mk_gargs {
  ga_ndir : nat; ga_range : A * A; ga_alphamat : amat; ga_square : bool; ga_stops : A * A * A * A; ga_kw : dkw A }.
Arguments mk_gargs {A}. Arguments ga_ndir {A}. Arguments ga_range {A}. Arguments ga_alphamat {A}. Arguments ga_square {A}.
Arguments ga_stops {A}. Arguments ga_kw {A}.

Section Grid.
  Context {A : Type} `{Num A}.
  Open Scope num_scope.
  Variable tr : trig A.
  (** most.fit(x, **kw): the value of the projection index.  Objects whose
      value depends on earlier calls are not modelled (dicomo's does not, C55). *)
  Variable most : arr A -> dkw A -> res A.

  (** Python's max and min of two numbers *)
  Definition pymax (a b : A) : A := if a <?! b then b else a.
  Definition pymin (a b : A) : A := if b <?! a then b else a.

  (** np.linspace(start, stop, num, endpoint) *)
  Definition linspace (start stop : A) (num : nat) (endpoint : bool) : list A :=
    let div := if endpoint then (num - 1)%nat else num in
    let step := (stop -! start) /! nnat div in
    map (fun i => if endpoint && (i =? num - 1)%nat && (1 <? num)%nat then stop
                  else if (div =? 0)%nat then start
                  else nnat i *! step +! start) (seq 0 num).

  (** np.array([np.cos(nangle), np.sin(nangle)]), as the list of its columns,
      times optmax if that is not 1 (_ppdire_utils.py:85-87, 167-169) *)
  Definition directions (angles : list A) (optmax : A) : list (A * A) :=
    map (fun a => if optmax =?! n1 then (t_cos tr a, t_sin tr a)
                  else (t_cos tr a *! optmax, t_sin tr a *! optmax)) angles.

  (** np.arcsin and np.arccos of the signs of optrange
      (_ppdire_utils.py:77-81, ppdire.py:430-435): stop0c, stop0s, stop1c, stop1s *)
  Definition stops (range : A * A) : A * A * A * A :=
    let lo := nsign (fst range) in
    let hi := nsign (snd range) in
    (t_acos tr hi, t_asin tr lo, t_acos tr lo, t_asin tr hi).

  (** np.max (ValueError for an empty list, NaN if there is one) *)
  Definition npmax (l : list A) : res A :=
    match l with
    | [] => Err ValueError
    | _ => match find nisnan l with Some v => Ok v | None => Ok (vmaxl l) end
    end.
  (** _ppdire_utils.py:97-103, 182-188: the first column at which the maximum
      is attained; no column (NaN) makes reshape raise ValueError *)
  Definition pick (dirs : list (A * A)) (meas : list A) : res (A * A * A) :=
    bind (npmax meas) (fun m =>
    match find (fun dv => snd dv =?! m) (combine dirs meas) with
    | Some dv => Ok (fst dv, m)
    | None => Err ValueError
    end).

  (** tj[:,i] = X alphamat[:,i] *)
  Definition project (X : mat A) (d : A * A) : vec A := matvec X [fst d; snd d].
  Definition maybe_sq (square : bool) (v : A) : A := if square then v *! v else v.
  (** :90-95, :175-180 *)
  Definition measures (g : gargs A) (X : mat A) (dirs : list (A * A)) : res (list A) :=
    mapM (fun d => bind (most (A1 (project X d)) (ga_kw g)) (fun v => Ok (maybe_sq (ga_square g) v))) dirs.
  Definition two_columns (X : mat A) : bool := forallb (fun r => (length r =? 2)%nat) X.

  (** _ppdire_utils.py:24-103 gridplane(X, most, pi_arguments) without further
      keyword arguments.  A matrix as alphamat makes line 76 raise (ambiguous
      truth value); None makes np.matmul raise (both ValueError). *)
  Definition gridplane (X : mat A) (g : gargs A) : res (A * A * A) :=
    match ga_alphamat g with
    | AmNone | AmArray => Err ValueError
    | AmTuple =>
        let '(s0c, s0s, s1c, s1s) := stops (ga_range g) in
        let dirs := directions (linspace (pymax s0c s0s) (pymax s1c s1s) (ga_ndir g) false) (snd (ga_range g)) in
        if negb (two_columns X) then Err ValueError else
        bind (measures g X dirs) (pick dirs)
    end.

  (** _ppdire_utils.py:107-188 gridplane_2(X, most, q, div, pi_arguments): div
      is not used; q is the number q[0].  Only a matrix as alphamat has .any(). *)
  Definition gridplane_2 (X : mat A) (q : A) (g : gargs A) : res (A * A * A) :=
    match ga_alphamat g with
    | AmNone | AmTuple => Err AttributeError
    | AmArray =>
        let '(s0c, s0s, s1c, s1s) := ga_stops g in
        let dirs0 := directions (linspace (pymin s0c s0s) (pymin s1c s1s) (ga_ndir g) true) (snd (ga_range g)) in
        let dirs := map (fun d => let dv := nsqrt (n1 +! nnat 2 *! (fst d *! snd d) *! q) in (fst d /! dv, snd d /! dv)) dirs0 in
        if negb (two_columns X) then Err ValueError else
        bind (measures g X dirs) (pick dirs)
    end.

  (** ** ppdire.py:491-581, optimizer 'grid', more than two columns *)
  (** E[:,k] *)
  Definition getcol (E : mat A) (k : nat) : res (vec A) := if (k <? ncols E)%nat then Ok (col k E) else Err IndexError.
  (** a column vector *)
  Definition as_col (v : vec A) : arr A := A2 (map (fun a => [a]) v).
  (** np.array([u, v]).T *)
  Definition stack2 (u v : vec A) : mat A := map2 (fun a b => [a; b]) u v.
  (** Zopt*w0 + Z[:,j]*w1 *)
  Definition blend (w0 w1 : A) (zopt zj : vec A) : vec A := vadd (vscale w0 zopt) (vscale w1 zj).
  (** v[j] = f(v[j]) *)
  Definition upd (j : nat) (f : A -> A) (v : vec A) : vec A :=
    map (fun ka => if (fst ka =? j)%nat then f (snd ka) else snd ka) (combine (seq 0 (length v)) v).
  (** np.dot(Z, a) *)
  Definition npdot (Z : mat A) (a : vec A) : res (vec A) :=
    if (ncols Z =? length a)%nat then Ok (matvec Z a) else Err ValueError.

  (** :510-519 *)
  Fixpoint sweep1 (g : gargs A) (Z : mat A) (js : list nat) (zopt afin : vec A) : res (vec A * vec A) :=
    match js with
    | [] => Ok (zopt, afin)
    | j :: js' =>
        bind (getcol Z j) (fun zj =>
        bind (gridplane (stack2 zopt zj) g) (fun '(w0, w1, _) =>
        sweep1 g Z js' (blend w0 w1 zopt zj)
          (upd j (fun _ => w1) (map (fun ka => if (fst ka <=? j)%nat then snd ka *! w0 else snd ka) (combine (seq 0 (length afin)) afin)))))
    end.
  (** :537-553 *)
  Fixpoint sweep2 (g : gargs A) (Z : mat A) (js : list nat) (zopt afin : vec A) : res (vec A * vec A) :=
    match js with
    | [] => Ok (zopt, afin)
    | j :: js' =>
        bind (getcol Z j) (fun zj =>
        bind (gridplane_2 (stack2 zopt zj) (nth j afin n0) g) (fun '(w0, w1, _) =>
        sweep2 g Z js' (blend w0 w1 zopt zj) (upd j (fun a => a +! w1) (map (fun a => a *! w0) afin))))
    end.
  (** :521-526, :556-564: the objective of the current weights *)
  Definition objective (g : gargs A) (Z : mat A) (afin : vec A) : res A :=
    bind (npdot Z afin) (fun tj => bind (most (as_col tj) (ga_kw g)) (fun v => Ok (maybe_sq (ga_square g) v))).

  (** :536-575; [fuel] is maxiter + 1 - ii *)
  Fixpoint refine (fuel : nat) (g2 : gargs A) (Z : mat A) (zopt afin : vec A) (objfold objf : A) : res (vec A * vec A * A) :=
    match fuel with
    | O => Ok (zopt, afin, objf)
    | S fuel' =>
        if nlit 1 10000 <?! (nabs (objfold -! objf) /! nabs objf) then
          bind (sweep2 g2 Z (seq 0 (length afin)) zopt afin) (fun '(zopt', afin') =>
          bind (objective g2 Z afin') (fun o => refine fuel' g2 Z zopt' afin' objf o))
        else Ok (zopt, afin, objf)
    end.

  (** the weights after the first sweep (:499-519), with their projection *)
  Definition first_sweep (g : gargs A) (E : mat A) (p : nat) : res (vec A * vec A) :=
    bind (gridplane (map (firstn 2) E) g) (fun '(w0, w1, _) =>
    sweep1 g E (seq 2 (p - 2)) (project (map (firstn 2) E) (w0, w1)) (w0 :: w1 :: vzeros (p - 2))).

  (** :499-580.  The measures of the single columns (:502-506) are computed but
      not used (the columns are not sorted).  [maxiter] is the number in the
      options; :534 raises for 0 (OverflowError) and negative (ValueError). *)
  Definition grid_search (g g2 : gargs A) (maxiter : Z) (E : mat A) (p : nat) : res (vec A * A) :=
    bind (mapM (fun k => bind (getcol E k) (fun c => most (as_col c) (ga_kw g))) (seq 0 p)) (fun _ =>
    bind (first_sweep g E p) (fun '(zopt, afin) =>
    bind (objective g E afin) (fun objf =>
    if (maxiter =? 0)%Z then Err OverflowError
    else if (maxiter <? 0)%Z then Err ValueError
    else
    bind (refine (S (Z.to_nat maxiter)) g2 E zopt afin objf (nopp (nnat 1000))) (fun '(_, afin', o) =>
    Ok (afin', o))))).
End Grid.

(** External routines: the scaler's (M_Robcent), trigonometry, scipy's pinv,
    np.linalg.svd(_, full_matrices=False), the optimisers (given the optimiser,
    the options dictionary, the objective function and the starting value:
    scipy, differential_evolution, ipopt, constraints included), rm(...).coef_
    of y on one regressor, QuantReg(y, t).fit().params. *)
Record pp_env (A : Type) : Type := mk_ppenv {
  pe_prep : prep_env A; pe_trig : trig A;
  pe_pinv : mat A -> res (mat A); pe_svd : mat A -> res (mat A * vec A * mat A);
  pe_opt : optim -> dict -> (vec A -> res A) -> vec A -> res (vec A);
  pe_rm : vec A -> vec A -> res (vec A); pe_qr : vec A -> vec A -> res (vec A) }.
Arguments mk_ppenv {A}. Arguments pe_prep {A}. Arguments pe_trig {A}. Arguments pe_pinv {A}. Arguments pe_svd {A}.
Arguments pe_opt {A}. Arguments pe_rm {A}. Arguments pe_qr {A}.

(** projection_index and pi_arguments: whether the class is dicomo, the entry
    'mode' of pi_arguments, and the object projection_index( **pi_arguments) *)
Record pp_index (A : Type) : Type := mk_ppindex {
  ix_dicomo : bool; ix_mode : option string; ix_new : res (arr A -> dkw A -> res A) }.
Arguments mk_ppindex {A}. Arguments ix_dicomo {A}. Arguments ix_mode {A}. Arguments ix_new {A}.

(** Constructor parameters (ppdire.py:163-201) without optimizer_options (a
    dictionary, threaded separately), optimizer_constraints (part of the
    optimiser), copy, verbose and return_scaling_object. *)
Record pparams (A : Type) : Type := mk_pp {
  pp_idx : pp_index A; pp_ncomp : nat; pp_trim : A; pp_alpha : A; pp_optim : optim; pp_regopt : string;
  pp_center : centre_opt A; pp_center_data : bool; pp_scale_data : bool; pp_whiten : bool; pp_square : bool; pp_compress : bool }.
Arguments mk_pp {A}. Arguments pp_idx {A}. Arguments pp_ncomp {A}. Arguments pp_trim {A}. Arguments pp_alpha {A}. Arguments pp_optim {A}.
Arguments pp_regopt {A}. Arguments pp_center {A}. Arguments pp_center_data {A}. Arguments pp_scale_data {A}. Arguments pp_whiten {A}.
Arguments pp_square {A}. Arguments pp_compress {A}.

(** y argument of fit: none, positional, or by keyword *)
Inductive yarg (A : Type) : Type := YNone | YPos (y : arr A) | YKw (y : arr A).
Arguments YNone {A}. Arguments YPos {A}. Arguments YKw {A}.
(** keyword arguments of fit (:224-279); dmetric and option are read but not used *)
Record fkw (A : Type) : Type := mk_fkw { f_y : yarg A; f_h : option nat; f_bias : bool; f_option : option nat; f_dmetric : option (list A -> list A -> A) }.
Arguments mk_fkw {A}. Arguments f_y {A}. Arguments f_h {A}. Arguments f_bias {A}. Arguments f_option {A}. Arguments f_dmetric {A}.

(** a number or an array with one value per training case *)
Inductive inter (A : Type) : Type := IOne (a : A) | IMany (v : vec A).
Arguments IOne {A}. Arguments IMany {A}.

(** the attributes set when y is given (:731-739); residuals_ is a column (A1)
    or a matrix *)
Record pp_ymodel (A : Type) : Type := mk_ym {
  ym_coef : mat A; ym_coef_scaled : mat A; ym_intercept : inter A; ym_intercept_scaled : inter A;
  ym_fitted : vec A; ym_resid : arr A; ym_C : vec A; ym_loc : A; ym_sca : A }.
Arguments mk_ym {A}. Arguments ym_coef {A}. Arguments ym_coef_scaled {A}. Arguments ym_intercept {A}. Arguments ym_intercept_scaled {A}.
Arguments ym_fitted {A}. Arguments ym_resid {A}. Arguments ym_C {A}. Arguments ym_loc {A}. Arguments ym_sca {A}.

(** the fitted attributes (:741-758); [pm_2d] tells whether x_loc_ and x_sca_
    have shape (1,p) instead of (p,); x_ev_ is always zero and left out *)
Record pp_model (A : Type) : Type := mk_pm {
  pm_p : nat; pm_W : mat A; pm_P : mat A; pm_R : mat A; pm_T : mat A; pm_crit : vec A; pm_max : vec A;
  pm_loc : vec A; pm_sca : vec A; pm_2d : bool; pm_y : option (pp_ymodel A) }.
Arguments mk_pm {A}. Arguments pm_p {A}. Arguments pm_W {A}. Arguments pm_P {A}. Arguments pm_R {A}. Arguments pm_T {A}. Arguments pm_crit {A}.
Arguments pm_max {A}. Arguments pm_loc {A}. Arguments pm_sca {A}. Arguments pm_2d {A}. Arguments pm_y {A}.

(** one component: the direction, the stored weight column, the score, the
    loading, Maxobjf, crit_values, the deflated data *)
Record pcomp (A : Type) : Type := mk_pcomp {
  g_dir : vec A; g_w : vec A; g_t : vec A; g_p : vec A; g_max : A; g_crit : A; g_E : mat A }.
Arguments mk_pcomp {A}. Arguments g_dir {A}. Arguments g_w {A}. Arguments g_t {A}. Arguments g_p {A}. Arguments g_max {A}. Arguments g_crit {A}. Arguments g_E {A}.

Section Ppdire.
  Context {A : Type} `{Num A}.
  Open Scope num_scope.
  Variable env : pp_env A.

  (** :163-207 the constructor check *)
  Definition pp_init (prm : pparams A) : res (pparams A) :=
    match pp_center prm with CMean | CMedian => Ok prm | _ => Err ValueError end.

  (** ** The options dictionary *)
  (** :428-429 *)
  Definition grid_options (d : dict) : dict := set_default (KStr "ndir") (VInt 1000) d.
  (** the value of an option that is used as an integer (ndir :438, maxiter :461,
      :534-536).  Simplified: a float maxiter, which the code accepts, is an error
      here; the theorems are about integer values of maxiter or its absence. *)
  Definition opt_int (k : string) (d : dict) : res Z :=
    match dget (KStr k) d with Some (VInt z) => Ok z | Some _ => Err TypeError | None => Err KeyError end.
  (** **options of a Python call: keys must be str *)
  Definition str_keys (d : dict) : bool := forallb (fun kv => match fst kv with KStr _ => true | _ => false end) d.

  (** ** One component *)
  (** the arguments passed to the projection index (:419-424, :485) *)
  Definition index_kw (prm : pparams A) (bias : bool) (ys : option (vec A)) : dkw A :=
    mk_dkw (match ys with Some y => Some (as_col y) | None => None end) (Some (pp_trim prm)) (Some bias) (Some (pp_alpha prm))
      None None None None None (Some euclid).

  Definition opt_range : A * A := (nopp n1, n1).                       (* :204 *)
  Definition plane_args (prm : pparams A) (kw : dkw A) (ndir : nat) (am : amat) : gargs A :=
    mk_gargs ndir opt_range am (pp_square prm) (stops (pe_trig env) opt_range) kw.

  (** _ppdire_utils.py:13-22 pp_objective *)
  Definition pp_objective (most : arr A -> dkw A -> res A) (kw : dkw A) (E : mat A) (x : vec A) : res A :=
    bind (npdot E x) (fun t => bind (most (as_col t) kw) (fun v => Ok (nopp v))).

  (** :491-632: the direction, and for the grid its objective.  Returns the
      options dictionary after the call. *)
  Definition direction (prm : pparams A) (most : arr A -> dkw A -> res A) (kw : dkw A) (d : dict) (p : nat) (E : mat A)
    : dict * res (vec A * option A) :=
    match pp_optim prm with
    | OGrid =>
        (d, bind (opt_int "ndir" d) (fun ndir => bind (opt_int "maxiter" d) (fun maxiter =>
            bind (grid_search (pe_trig env) most (plane_args prm kw (Z.to_nat ndir) AmTuple) (plane_args prm kw (Z.to_nat ndir) AmArray) maxiter E p)
              (fun '(w, o) => Ok (w, Some o)))))
    | o =>
        match E with
        | [] => (d, Err IndexError)                                     (* E[0,:] *)
        | x0 :: _ =>
            let d' := match o with OIpopt => solver_options VNone d | _ => d end in
            (d', if match o with OScipy _ => negb (str_keys d) | _ => false end then Err TypeError
                 else bind (pe_opt env o d (pp_objective most kw E) x0) (fun x =>
                   if (length x =? p)%nat then Ok (map (fun v => v /! nsqrt (vsum (map nsqr x))) x, None)
                   else Err ValueError))                                (* reshape((p,1)) *)
        end
    end.

  (** :635-663.  [K] is the whitening matrix if whiten_data. *)
  Definition component (prm : pparams A) (most : arr A -> dkw A -> res A) (kw : dkw A) (two : bool) (K : option (mat A)) (n p : nat) (E : mat A)
      (wo : vec A * option A) : res (pcomp A) :=
    let '(wi, omax) := wo in
    bind (npdot E wi) (fun t =>                                         (* :636 *)
    bind (match omax with Some o => Ok o | None => most (as_col t) kw end) (fun mx =>     (* :637-638 *)
    let nt2 := nsqr (vnorm t) in
    let pl := map (fun v => v /! nt2) (tmatvec E t) in                  (* :640 *)
    let w := match K with
             | None => wi
             | Some K' => let wn := map (fun v => v /! nsqrt (vsum (map nsqr wi))) wi in
                          concat (map2 (fun r a => map (fun x => x *! a) r) K' wn)   (* :641-647 *)
             end in
    if negb ((length w =? p)%nat && (length t =? n)%nat && (length pl =? p)%nat) then Err ValueError   (* :648-650 *)
    else
    bind (if two then bind (npdot E w) (fun tw => bind (most (as_col tw) kw) (fun v => Ok (maybe_sq (pp_square prm) v))) else Ok n0) (fun cr =>  (* :652-659 *)
    Ok (mk_pcomp wi w t pl mx cr (msub E (outer t pl)))))).

  (** :669-684 the coefficient of y on the score.  [ys] the scaled and [y] the
      original response; [kwy] tells whether y was given by keyword (otherwise
      fun, probp1 ... and quantile are unbound). *)
  Definition inner_coef (prm : pparams A) (kwy : bool) (ys y t : vec A) : res A :=
    if (pp_regopt prm =? "OLS")%string then Ok (dot t ys /! nsqr (vnorm t))
    else if (pp_regopt prm =? "robust")%string then
      (if kwy then bind (pe_rm env t ys) (fun c => match c with [a] => Ok a | _ => Err ValueError end) else Err UnboundLocalError)
    else if (pp_regopt prm =? "quantile")%string then
      (if kwy then bind (pe_qr env y t) (fun c => match c with [a] => Ok a | _ => Err ValueError end) else Err UnboundLocalError)
    else Err UnboundLocalError.

  (** R = W pinv(P'W) (:666) *)
  Definition rotations (p : nat) (cs : list (pcomp A)) : res (mat A) :=
    let W := of_cols p (map g_w cs) in
    bind (pe_pinv env (matmul (transpose (of_cols p (map g_p cs))) W)) (fun Pi => Ok (matmul W Pi)).

  (** the response as the loop sees it: by keyword or not, scaled, original, scale *)
  Record yinfo : Type := mk_yi { yi_kw : bool; yi_s : vec A; yi_0 : vec A; yi_sca : A }.

  (** :488-691; [cs], [yc] are the components and (C, B, B_scaled) columns so far *)
  Fixpoint pp_loop (k : nat) (prm : pparams A) (most : arr A -> dkw A -> res A) (kw : dkw A) (yi : option yinfo) (K : option (mat A))
      (n p : nat) (sX : vec A) (d : dict) (E : mat A) (cs : list (pcomp A)) (yc : list (A * vec A * vec A)) (R : mat A)
    : dict * res (list (pcomp A) * list (A * vec A * vec A) * mat A) :=
    match k with
    | O => (d, Ok (cs, yc, R))
    | S k' =>
        let '(d', rw) := direction prm most kw d p E in
        match bind rw (fun wo =>
              bind (component prm most kw (match yi with Some _ => true | None => false end) K n p E wo) (fun c =>
              let cs' := cs ++ [c] in
              bind (rotations p cs') (fun R' =>
              bind (match yi with
                    | None => Ok yc
                    | Some y =>
                        bind (inner_coef prm (yi_kw y) (yi_s y) (yi_0 y) (g_t c)) (fun ci =>
                        let bs := matvec R' (map (fun q => fst (fst q)) yc ++ [ci]) in     (* :685 *)
                        if negb (length sX =? p)%nat then Err ValueError                    (* :687 *)
                        else Ok (yc ++ [(ci, map2 (fun s b => (yi_sca y /! s) *! b) sX bs, bs)]))
                    end) (fun yc' => Ok (c, cs', yc', R'))))) with
        | Err e => (d', Err e)
        | Ok (c, cs', yc', R') => pp_loop k' prm most kw yi K n p sX d' (g_E c) cs' yc' R'
        end
    end.

  (** ** fit *)
  (** VersatileScaler(center, scale, trimming).fit_transform (:351-356, :388-390) *)
  Definition pp_scaled (c : centre_opt A) (s : scale_opt A) (t : A) (X : mat A) : res (vec A * vec A * mat A) :=
    match sc_fit_transform (pe_prep env) (new_scaler c s t) (A2 X) with
    | (st, Ok Z) =>
        match a_col_loc st, a_col_sca st with
        | Some m, Some v => Ok (m, v, Z)
        | _, _ => Err AttributeError
        end
    | (_, Err e) => Err e
    end.

  (** :322-329 *)
  Definition scale_name (prm : pparams A) : res (scale_opt A) :=
    if pp_scale_data prm then
      match pp_center prm with CMean => Ok SStd | CMedian | CL1median => Ok SMad | _ => Err UnboundLocalError end
    else Ok SNone.
  Definition is_none_scale (s : scale_opt A) : bool := match s with SNone => true | _ => false end.
  Definition is_mean (c : centre_opt A) : bool := match c with CMean => true | _ => false end.

  (** Parameters changed by fit: n_components (:230) and, when whitening,
      center_data, scale_data, compression (:315-318) *)
  Definition with_h (prm : pparams A) (h : option nat) : pparams A :=
    match h with
    | None => prm
    | Some k => mk_pp (pp_idx prm) k (pp_trim prm) (pp_alpha prm) (pp_optim prm) (pp_regopt prm) (pp_center prm) (pp_center_data prm)
                  (pp_scale_data prm) (pp_whiten prm) (pp_square prm) (pp_compress prm)
    end.
  Definition with_whitening (prm : pparams A) : pparams A :=
    if pp_whiten prm
    then mk_pp (pp_idx prm) (pp_ncomp prm) (pp_trim prm) (pp_alpha prm) (pp_optim prm) (pp_regopt prm) (pp_center prm) true false true (pp_square prm) false
    else prm.

  (** :376-395 the response: number of rows must agree; one column (more than
      one column fails at :684, n_components = 0 apart, which is not modelled) *)
  Definition response (prm : pparams A) (s : scale_opt A) (n : nat) (kwy : bool) (y : arr A) : res (yinfo * A) :=
    let rows := match y with A1 v => map (fun a => [a]) v | A2 Y => Y end in
    if negb (length rows =? n)%nat then Err MyException
    else if negb (forallb (fun r => (length r =? 1)%nat) rows) then Err ValueError
    else if pp_center_data prm then
      bind (pp_scaled (pp_center prm) s (pp_trim prm) rows) (fun '(m, v, Z) =>
      Ok (mk_yi kwy (col 0 Z) (col 0 rows) (nth 0 v n0), nth 0 m n0))
    else Ok (mk_yi kwy (col 0 rows) (col 0 rows) n1, n0).

  (** n x n matrix y_a - f_b: a column minus a one-dimensional array *)
  Definition col_minus_row (y f : vec A) : mat A := map (fun a => map (fun b => a -! b) f) y.

  (** :710-730 intercepts, fitted values, residuals.  [dims]: the data were
      compressed, bi is one-dimensional *)
  Definition finish_y (prm : pparams A) (s : scale_opt A) (dims : bool) (X Xs : mat A) (yi : yinfo) (bi : vec A)
    : res (inter A * inter A * vec A * arr A) :=
    let y := yi_0 yi in
    let f := matvec X bi in
    let fs := matvec Xs bi in
    bind (if dims then
            if is_mean (pp_center prm)
            then bind (mapM (trim_mean1 (pp_trim prm)) (cols (col_minus_row y f))) (fun v => Ok (IMany v))
            else Ok (IOne (vmedian (concat (col_minus_row y f))))
          else
            if is_mean (pp_center prm)
            then bind (trim_mean1 (pp_trim prm) (vsub y f)) (fun a => Ok (IOne a))
            else Ok (IOne (vmedian (vsub y f)))) (fun ic =>
    let yfit := match ic with IOne a => map (fun v => v +! a) f | IMany v => vadd f v end in
    let r := if dims then concat (col_minus_row (yi_s yi) fs) else vsub (yi_s yi) fs in
    let b0 := if is_none_scale s then ic else IOne (if is_mean (pp_center prm) then vmean r else vmedian r) in
    Ok (ic, b0, yfit, if dims then A2 (col_minus_row y yfit) else A1 (vsub y yfit))).

  (** :210-764 fit.  Returns the parameters and the options dictionary
      afterwards and the fitted model or the exception. *)
  Definition pp_fit (prm : pparams A) (d : dict) (X0 : mat A) (f : fkw A) : pparams A * dict * res (pp_model A) :=
    let prm1 := with_h prm (f_h f) in
    let h := pp_ncomp prm1 in
    let yflag := match f_y f with YNone => None | YPos y => Some (false, y) | YKw y => Some (true, y) end in
    if ix_dicomo (pp_idx prm1) && match ix_mode (pp_idx prm1) with None => true | _ => false end
    then (prm1, d, Err KeyError) else                                    (* :284 *)
    match ix_new (pp_idx prm1) with
    | Err e => (prm1, d, Err e)                                          (* :295 *)
    | Ok most =>
    let n := length X0 in
    let p0 := ncols X0 in
    if (Nat.min n p0 <? h)%nat then (prm1, d, Err MyException) else      (* :308 *)
    let prm2 := with_whitening prm1 in
    match scale_name prm2 with
    | Err e => (prm2, d, Err e)
    | Ok s =>
    (* :332-348: compression *)
    match (if (n <? p0)%nat && pp_compress prm2 then
             bind (pe_svd env (transpose X0)) (fun '(V, sv, U) =>
             let Xc := map (fun r => map2 nmul r sv) (transpose U) in
             if existsb (fun v => v =?! n0) (mad Xc) then Ok (X0, ncols Xc, None) else Ok (Xc, ncols Xc, Some V))
           else Ok (X0, p0, None)) with
    | Err e => (prm2, d, Err e)
    | Ok (X, p, dims) =>
    match (if pp_center_data prm2 then pp_scaled (pp_center prm2) s (pp_trim prm2) X else Ok (vzeros p, repeat n1 p, X)) with
    | Err e => (prm2, d, Err e)
    | Ok (mX, sX, Xs0) =>
    (* :365-371: whitening *)
    match (if pp_whiten prm2 then
             bind (pe_svd env (transpose Xs0)) (fun '(V, sv, _) =>
             let K := map (fun r => firstn p (map2 ndiv r sv)) V in
             Ok (map (map (fun v => v *! nsqrt (nnat p))) (matmul Xs0 K), Some K))
           else Ok (Xs0, None)) with
    | Err e => (prm2, d, Err e)
    | Ok (Xs, K) =>
    match (match yflag with
           | None => Ok None
           | Some (kwy, y) => bind (response prm2 s n kwy y) (fun yi => Ok (Some yi))
           end) with
    | Err e => (prm2, d, Err e)
    | Ok yi =>
    let kw := index_kw prm2 (f_bias f) (match yi with Some (y, _) => Some (yi_s y) | None => None end) in
    (* :426-482: the grids *)
    let d1 := match pp_optim prm2 with OGrid => grid_options d | _ => d end in
    match (match pp_optim prm2 with
           | OGrid => bind (opt_int "ndir" d1) (fun z => if (z <? 0)%Z then Err ValueError else
                      bind (opt_int "maxiter" d1) (fun _ => if (p <=? 2)%nat then Err UnboundLocalError else Ok tt))
           | _ => Ok tt
           end) with
    | Err e => (prm2, d1, Err e)
    | Ok _ =>
    let '(d2, r) := pp_loop h prm2 most kw (match yi with Some (y, _) => Some y | None => None end) K n p sX d1 Xs [] [] (of_cols p []) in
    (prm2, d2,
     bind r (fun '(cs, yc, R) =>
     let T := of_cols n (map g_t cs) in
     (* :694-708 *)
     let back (M : mat A) : mat A := match dims with Some V => matmul (map (firstn p) V) M | None => M end in
     let W := back (of_cols p (map g_w cs)) in
     let P := back (of_cols p (map g_p cs)) in
     let R' := back R in
     let B := back (of_cols p (map (fun q => snd (fst q)) yc)) in
     let Bs := back (of_cols p (map snd yc)) in
     let pn := match dims with Some _ => p0 | None => p end in
     if match dims with Some _ => (h =? 0)%nat | None => false end then Err IndexError else   (* :700 *)
     bind (match dims with
           | Some _ => if pp_center_data prm2 then pp_scaled (pp_center prm2) s (pp_trim prm2) X0 else Ok (vzeros p, repeat n1 p, X0)
           | None => Ok (mX, sX, Xs)
           end) (fun '(mX', sX', Xs') =>
     bind (match yi with
           | None => Ok None
           | Some (y, my) =>
               let bi := match yc with [] => vzeros p | _ => col (h - 1) B end in
               let Xu := match dims with Some _ => X0 | None => X end in
               bind (finish_y prm2 s (match dims with Some _ => true | None => false end) Xu Xs' y bi) (fun '(ic, b0, yfit, r) =>
               Ok (Some (mk_ym B Bs ic b0 yfit r (map (fun q => fst (fst q)) yc) my (yi_sca y))))
           end) (fun ym =>
     Ok (mk_pm pn W P R' T (map g_crit cs) (map g_max cs) mX' sX' (negb (pp_center_data prm2)) ym)))))
    end end end end end end end.

  (** :767-786 predict *)
  Definition pp_predict (m : pp_model A) (Xn : mat A) : res (vec A) :=
    match pm_y m with
    | None => Err AttributeError
    | Some ym =>
        if negb (ncols Xn =? pm_p m)%nat then Err ValueError
        else if (ncols (ym_coef ym) =? 0)%nat then Err IndexError
        else
          let f := matvec Xn (col (ncols (ym_coef ym) - 1) (ym_coef ym)) in
          match ym_intercept ym with
          | IOne a => Ok (map (fun v => v +! a) f)
          | IMany v => if (length v =? length f)%nat then Ok (vadd f v)
                       else if (length v =? 1)%nat then Ok (map (fun x => x +! nth 0 v n0) f)
                       else if (length f =? 1)%nat then Ok (map (fun x => nth 0 f n0 +! x) v)
                       else Err ValueError
          end
    end.

  (** the result of transform: a matrix, or a three-dimensional array *)
  Inductive tout : Type := T2 (X : mat A) | T3 (Xs : list (mat A)).
  (** :788-807 transform.  With x_loc_ of shape (1,p) and p >= 2 scale_data
      broadcasts to one copy of the data per row (_preproc_utilities.py:310-311). *)
  Definition pp_transform (m : pp_model A) (Xn : mat A) : res tout :=
    if negb (ncols Xn =? pm_p m)%nat then Err ValueError
    else bind (scale_data Xn (pm_loc m) (pm_sca m)) (fun Xc =>
         if pm_2d m && negb (ncols Xn =? 1)%nat then Ok (T3 (map (fun _ => matmul Xc (pm_R m)) Xn))
         else Ok (T2 (matmul Xc (pm_R m)))).
End Ppdire.
Arguments yinfo : clear implicits.
Arguments tout : clear implicits.
