(** The number types of numpy arrays: what the package does with arrays of
    integers.

    The other model files take the contents of an array only.  Here an array
    carries the information whether its elements are integers, and the
    statements that depend on it are modelled: updating an array in place and
    assigning to elements of an array.  All other operations of numpy that the
    package applies to data (differences with a float array, means, medians,
    quotients, products with a float array, singular value decompositions)
    return arrays of floats; the functions of the other files are used for
    them.  Data frames and arrays of objects are converted to floats first
    (utils.py:17-28, 69-70).  Integer overflow is not modelled. *)

From Coq Require Import String List Arith ZArith Bool.
Import List. Import ListNotations.
From Verif Require Import Num Err Vec M_Utils M_Preproc M_Robcent M_Dicomo M_Ipopt M_Msupport M_Ppdire.

(** a two-dimensional numpy array: are the elements integers, and the elements *)
Record narr (A : Type) : Type := mk_narr { na_int : bool; na_val : mat A }.
Arguments mk_narr {A}. Arguments na_int {A}. Arguments na_val {A}.

Section Dtype.
  Context {A : Type} `{Num A}.
  Open Scope num_scope.

  Definition floats (X : mat A) : narr A := mk_narr false X.
  Definition ints (X : mat A) : narr A := mk_narr true X.

  (** [X -= Y], [X /= v] with a float on the right: numpy refuses to store the
      floats in an array of integers (UFuncTypeError, a TypeError) *)
  Definition isub (X : narr A) (Y : mat A) : res (narr A) :=
    if na_int X then Err TypeError else Ok (floats (msub (na_val X) Y)).
  Definition idiv_rows (X : narr A) (v : vec A) : res (narr A) :=
    if na_int X then Err TypeError else Ok (floats (rows_op ndiv (na_val X) v)).

  (** conversion of a float to an integer: towards zero *)
  Definition ntrunc (x : A) : A :=
    if n0 <=?! x then nZ (nfloor x) else nopp (nZ (nfloor (nopp x))).
  (** the value an element has after the assignment of [v]: an element of an
      array of integers keeps the integer part *)
  Definition stored (isint : bool) (v : A) : A := if isint then ntrunc v else v.
  (** as M_Msupport.upd *)
  Definition updD (isint : bool) (mask : A -> bool) (f : A -> A) (x : vec A) : vec A :=
    map (fun v => if mask v then stored isint (f v) else v) x.

  (** _m_support_functions.py:17-20 [Huber] *)
  Definition HuberD (isint : bool) (x : vec A) (c : A) : vec A :=
    let x1 := updD isint (fun v => v <=?! c) (fun _ => n1) x in
    updD isint (fun v => c <?! v) (fun v => c /! nabs v) x1.

  (** :23-34 [Hampel] *)
  Definition HampelD (isint : bool) (x : vec A) (c b r : A) : vec A :=
    let x1 := updD isint (fun v => v <=?! c) (fun _ => n1) x in
    let x2 := updD isint (fun v => (c <?! v) && (v <=?! b)) (fun v => c /! nabs v) x1 in
    let x3 := updD isint (fun v => (b <?! v) && (v <=?! r))
                  (fun v => (c *! (r -! v)) /! ((r -! b) *! nabs v)) x2 in
    updD isint (fun v => r <?! v) (fun _ => n0) x3.

  (** _preproc_utilities.py:235-290 [scaleTau2].  [xc] is an array of floats
      (the data minus their median, :255); the copy [x] of the data is updated in
      place in :264-265.  [mu] is a number, or a vector if c1 <= 0. *)
  Definition scaleTau2D (es2 c1 c2 : A) (consistency finite : bool) (x0 : narr A) : res (vec A) :=
    let x := na_val x0 in
    let n := length x in
    let summ := if manynan x then mnansum else msum in
    let medx := median x in
    let xc := map (map nabs) (rows_op nsub x medx) in
    let sigma0 := median xc in
    let mu :=
      if n0 <?! c1 then
        let xc' := rows_op ndiv xc (map (fun s => s *! c1) sigma0) in
        let w := map (map (fun u => let w := n1 -! nsqr u in
                                    nsqr ((nabs w +! w) /! nnat 2))) xc' in
        let mu := summ (map2 vmul x w) /! summ w in
        map (map (fun _ => mu)) x
      else map (fun _ => medx) x in
    bind (isub x0 mu) (fun x1 =>                                        (* :264 *)
    bind (idiv_rows x1 sigma0) (fun x2 =>                               (* :265 *)
    let rho := map (map nsqr) (na_val x2) in
    let c22 := nsqr c2 in
    let rho' := map (fun r => if existsb (fun v => c22 <?! v) r
                              then map (fun _ => c22) r else r) rho in
    let nEs2 := if consistency
                then (if finite then (nnat n -! nnat 2) *! es2 else nnat n *! es2)
                else nnat n in
    Ok (map (fun s => s *! nsqrt (summ rho' /! nEs2)) sigma0))).
End Dtype.

Section DtypeScaler.
  Context {A : Type} `{Num A}.
  Open Scope num_scope.
  Variable env : prep_env A.

  (** robcent.py:119-122,141-144.  Functions given by the user are taken to
      depend on the contents of the array only. *)
  Definition scale_estD (s : scale_opt A) (t : A) (X : narr A) : res (vec A) :=
    match s with
    | STau2 => scaleTau2D (env_es2 env) (nlit 9 2) (nnat 3) true false X
    | _ => scale_est env s t (na_val X)
    end.

  (** robcent.py:104-149 [fit]; _check_input keeps the number type *)
  Definition sc_fitD (st : scaler A) (XD : narr A) : scaler A * res unit :=
    let X := check_input (A2 (na_val XD)) in
    match check_trimming (sc_trimming st) with
    | Err e => (st, Err e)
    | Ok _ =>
      if is_bad (sc_center st) (sc_scale st) then (st, Err NameError) else
      match location env (sc_center st) (sc_trimming st) X with
      | Err e => (st, Err e)
      | Ok m =>
          let st1 := mk_scaler (sc_center st) (sc_scale st) (sc_trimming st)
                       (Some m) (Some m) (a_col_sca st) (a_scale st)
                       (a_datas st) (a_datans st) in
          match scale_estD (sc_scale st) (sc_trimming st) (mk_narr (na_int XD) X) with
          | Err e => (st1, Err e)
          | Ok s =>
              (mk_scaler (sc_center st) (sc_scale st) (sc_trimming st)
                 (Some m) (Some m) (Some s) (Some s)
                 (a_datas st) (a_datans st), Ok tt)
          end
      end
    end.

  (** robcent.py:176-184 [fit_transform]; the differences and quotients of
      scale_data (_preproc_utilities.py:306-313) are new arrays of floats *)
  Definition sc_fit_transformD (st : scaler A) (XD : narr A) : scaler A * res (mat A) :=
    match sc_fitD st XD with
    | (st1, Err e) => (st1, Err e)
    | (st1, Ok _) =>
        match sc_transform st1 (A2 (na_val XD)) with
        | (st2, Err e) => (st2, Err e)
        | (st2, Ok _) =>
            match a_datas st2 with
            | Some d => (st2, Ok d)
            | None => (st2, Err AttributeError)
            end
        end
    end.
End DtypeScaler.

Section DtypePp.
  Context {A : Type} `{Num A}.
  Open Scope num_scope.
  Variable env : pp_env A.

  (** ppdire.py:351-356: as M_Ppdire.pp_scaled *)
  Definition pp_scaledD (c : centre_opt A) (s : scale_opt A) (t : A) (X : narr A) : res (vec A * vec A * mat A) :=
    match sc_fit_transformD (pe_prep env) (new_scaler c s t) X with
    | (st, Ok Z) =>
        match a_col_loc st, a_col_sca st with
        | Some m, Some v => Ok (m, v, Z)
        | _, _ => Err AttributeError
        end
    | (_, Err e) => Err e
    end.

  (** ppdire.py:488-691: as M_Ppdire.pp_loop; E is a copy of the scaled data
      (:414) with its number type, deflated in place (:663) *)
  Fixpoint pp_loopD (k : nat) (prm : pparams A) (most : arr A -> dkw A -> res A) (kw : dkw A) (yi : option (yinfo A)) (K : option (mat A))
      (n p : nat) (sX : vec A) (d : dict) (ED : narr A) (cs : list (pcomp A)) (yc : list (A * vec A * vec A)) (R : mat A)
    : dict * res (list (pcomp A) * list (A * vec A * vec A) * mat A) :=
    match k with
    | O => (d, Ok (cs, yc, R))
    | S k' =>
        let E := na_val ED in
        let '(d', rw) := direction env prm most kw d p E in
        match bind rw (fun wo =>
              bind (component prm most kw (match yi with Some _ => true | None => false end) K n p E wo) (fun c =>
              bind (isub ED (outer (g_t c) (g_p c))) (fun ED' =>          (* :663 *)
              let cs' := cs ++ [c] in
              bind (rotations env p cs') (fun R' =>
              bind (match yi with
                    | None => Ok yc
                    | Some y =>
                        bind (inner_coef env prm (yi_kw y) (yi_s y) (yi_0 y) (g_t c)) (fun ci =>
                        let bs := matvec R' (map (fun q => fst (fst q)) yc ++ [ci]) in     (* :685 *)
                        if negb (length sX =? p)%nat then Err ValueError                    (* :687 *)
                        else Ok (yc ++ [(ci, map2 (fun s b => (yi_sca y /! s) *! b) sX bs, bs)]))
                    end) (fun yc' => Ok (ED', cs', yc', R')))))) with
        | Err e => (d', Err e)
        | Ok (ED', cs', yc', R') => pp_loopD k' prm most kw yi K n p sX d' ED' cs' yc' R'
        end
    end.

  (** ppdire.py:210-764 fit: as M_Ppdire.pp_fit.  Without centring the scaled
      data are the data themselves (:358).  The response is converted to floats
      (:395). *)
  Definition pp_fitD (prm : pparams A) (d : dict) (X0D : narr A) (f : fkw A) : pparams A * dict * res (pp_model A) :=
    let X0 := na_val X0D in
    let prm1 := with_h prm (f_h f) in
    let h := pp_ncomp prm1 in
    let yflag := match f_y f with YNone => None | YPos y => Some (false, y) | YKw y => Some (true, y) end in
    if ix_dicomo (pp_idx prm1) && match ix_mode (pp_idx prm1) with None => true | _ => false end
    then (prm1, d, Err KeyError) else                                    (* :284 *)
    match ix_new (pp_idx prm1) with
    | Err e => (prm1, d, Err e)                                          (* :295 *)
    | Ok most =>
    let n := length X0 in
    let p0 := ncols X0 in
    if (Nat.min n p0 <? h)%nat then (prm1, d, Err MyException) else      (* :308 *)
    let prm2 := with_whitening prm1 in
    match scale_name prm2 with
    | Err e => (prm2, d, Err e)
    | Ok s =>
    (* :332-348: compression *)
    match (if (n <? p0)%nat && pp_compress prm2 then
             bind (pe_svd env (transpose X0)) (fun '(V, sv, U) =>
             let Xc := map (fun r => map2 nmul r sv) (transpose U) in
             if existsb (fun v => v =?! n0) (mad Xc) then Ok (X0D, ncols Xc, None) else Ok (floats Xc, ncols Xc, Some V))
           else Ok (X0D, p0, None)) with
    | Err e => (prm2, d, Err e)
    | Ok (XD, p, dims) =>
    let X := na_val XD in
    match (if pp_center_data prm2 then bind (pp_scaledD (pp_center prm2) s (pp_trim prm2) XD) (fun '(m, v, Z) => Ok (m, v, floats Z))
           else Ok (vzeros p, repeat n1 p, XD)) with
    | Err e => (prm2, d, Err e)
    | Ok (mX, sX, XsD0) =>
    let Xs0 := na_val XsD0 in
    (* :365-371: whitening *)
    match (if pp_whiten prm2 then
             bind (pe_svd env (transpose Xs0)) (fun '(V, sv, _) =>
             let K := map (fun r => firstn p (map2 ndiv r sv)) V in
             Ok (floats (map (map (fun v => v *! nsqrt (nnat p))) (matmul Xs0 K)), Some K))
           else Ok (XsD0, None)) with
    | Err e => (prm2, d, Err e)
    | Ok (XsD, K) =>
    let Xs := na_val XsD in
    match (match yflag with
           | None => Ok None
           | Some (kwy, y) => bind (response env prm2 s n kwy y) (fun yi => Ok (Some yi))
           end) with
    | Err e => (prm2, d, Err e)
    | Ok yi =>
    let kw := index_kw prm2 (f_bias f) (match yi with Some (y, _) => Some (yi_s y) | None => None end) in
    (* :426-482: the grids *)
    let d1 := match pp_optim prm2 with OGrid => grid_options d | _ => d end in
    match (match pp_optim prm2 with
           | OGrid => bind (opt_int "ndir" d1) (fun z => if (z <? 0)%Z then Err ValueError else
                      bind (opt_int "maxiter" d1) (fun _ => if (p <=? 2)%nat then Err UnboundLocalError else Ok tt))
           | _ => Ok tt
           end) with
    | Err e => (prm2, d1, Err e)
    | Ok _ =>
    let '(d2, r) := pp_loopD h prm2 most kw (match yi with Some (y, _) => Some y | None => None end) K n p sX d1 XsD [] [] (of_cols p []) in
    (prm2, d2,
     bind r (fun '(cs, yc, R) =>
     let T := of_cols n (map g_t cs) in
     (* :694-708 *)
     let back (M : mat A) : mat A := match dims with Some V => matmul (map (firstn p) V) M | None => M end in
     let W := back (of_cols p (map g_w cs)) in
     let P := back (of_cols p (map g_p cs)) in
     let R' := back R in
     let B := back (of_cols p (map (fun q => snd (fst q)) yc)) in
     let Bs := back (of_cols p (map snd yc)) in
     let pn := match dims with Some _ => p0 | None => p end in
     if match dims with Some _ => (h =? 0)%nat | None => false end then Err IndexError else   (* :700 *)
     bind (match dims with
           | Some _ => if pp_center_data prm2 then pp_scaled env (pp_center prm2) s (pp_trim prm2) X0 else Ok (vzeros p, repeat n1 p, X0)
           | None => Ok (mX, sX, Xs)
           end) (fun '(mX', sX', Xs') =>
     bind (match yi with
           | None => Ok None
           | Some (y, my) =>
               let bi := match yc with [] => vzeros p | _ => col (h - 1) B end in
               let Xu := match dims with Some _ => X0 | None => X end in
               bind (finish_y prm2 s (match dims with Some _ => true | None => false end) Xu Xs' y bi) (fun '(ic, b0, yfit, r) =>
               Ok (Some (mk_ym B Bs ic b0 yfit r (map (fun q => fst (fst q)) yc) my (yi_sca y))))
           end) (fun ym =>
     Ok (mk_pm pn W P R' T (map g_crit cs) (map g_max cs) mX' sX' (negb (pp_center_data prm2)) ym)))))
    end end end end end end end.

End DtypePp.
