(** Model of src/direpack/sprm/snipls.py *)

From Coq Require Import List Arith ZArith Bool.
Import ListNotations.
From Verif Require Import Num Err Vec M_Utils M_Preproc M_Robcent M_Plot.

Section Snipls.
  Context {A : Type} `{Num A}.
  Open Scope num_scope.
  Variable env : prep_env A.
  (** np.linalg.inv; LinAlgError for singular input *)
  Variable inv : mat A -> res (mat A).

  (** snipls.py:156-161: [dot] is [nandot] if there is missing data, np.dot otherwise.
      [xw]: X w;  [xty]: X' y;  [dotv]: u' v *)
  Definition dotv (nan : bool) (u v : vec A) : A := if nan then nansum (vmul u v) else dot u v.
  Definition xw (nan : bool) (X : mat A) (w : vec A) : vec A := map (fun r => dotv nan r w) X.
  Definition xty (nan : bool) (X : mat A) (y : vec A) : vec A := map (fun c => dotv nan c y) (cols X).

  (** one pass of the loop :173-224.  Fields: weights, scores, loadings before
      truncation, stored loadings, inner coefficient, explained variances,
      retained variables (printed when verbose), deflated X and y *)
  Record scomp : Type := mk_scomp {
    c_w : vec A; c_t : vec A; c_q : vec A; c_p : vec A; c_c : A;
    c_xev : A; c_yev : A; c_good : list nat; c_X : mat A; c_y : vec A }.

  (** [v[elimvars] = 0] with elimvars the complement of [good] *)
  Definition keep (good : list nat) (v : vec A) : vec A :=
    map (fun jx => if existsb (Nat.eqb (fst jx)) good then snd jx else n0)
        (combine (seq 0 (length v)) v).

  (** :174-213; [None] is the [break] of line 192.  [ssx], [ssy] are
      np.nansum(np.square(X0)) and np.nansum(np.power(y0,2)). *)
  Definition snipls_step (nan : bool) (eta ssx ssy : A) (X : mat A) (y : vec A) (old : list nat) : option scomp :=
    let wh0 := xty nan X y in                                            (* :174 *)
    let nw := vnorm wh0 in
    let wh := map (fun v => v /! nw) wh0 in                              (* :175 *)
    let mx := vmaxl (map nabs wh) in
    let g := map (fun v => nabs v -! eta *! mx) wh in                    (* :177 *)
    let wh1 := map2 nmul g (map nsign wh) in                             (* :178 *)
    let good := union1d old (where_ (fun v => n0 <?! v) g) in            (* :179-181 *)
    match good with
    | [] => None                                                         (* :182-192 *)
    | _ =>
      let w := keep good wh1 in                                          (* :193-194 *)
      let t := xw nan X w in                                             (* :195 *)
      let nt2 := nsqr (vnorm t) in                                       (* :196 *)
      let c := dotv nan y t /! nt2 in                                    (* :197 *)
      let q := map (fun v => v /! nt2) (xty nan X (xw nan X w)) in       (* :198 *)
      let X' := msub X (outer t q) in                                    (* :199 *)
      let y' := vsub y (vscale c t) in                                   (* :200 *)
      let pl := keep good q in                                           (* :201 *)
      Some (mk_scomp w t q pl c
              (nt2 *! nsqr (vnorm pl) /! ssx *! nnat 100)                (* :206-210 *)
              (nt2 *! nsqr c /! ssy *! nnat 100)                         (* :211-212 *)
              good X' y')
    end.

  Fixpoint snipls_loop (nan : bool) (eta ssx ssy : A) (k : nat) (X : mat A) (y : vec A) (old : list nat) : list scomp :=
    match k with
    | O => []
    | S k' =>
        match snipls_step nan eta ssx ssy X y old with
        | None => []
        | Some c => c :: snipls_loop nan eta ssx ssy k' (c_X c) (c_y c) (c_good c)
        end
    end.

  (** fitted attributes (:261-278).  Uninitialised memory (x_weights_ etc. when
      no variable was retained) is represented by matrices without columns. *)
  Record snipls_model : Type := mk_snipls {
    sn_eta : A; sn_ncomp : nat; sn_p : nat;
    sn_W : mat A; sn_P : mat A; sn_C : vec A; sn_T : mat A;
    sn_coef : vec A; sn_coef_scaled : vec A; sn_intercept : A;
    sn_xev : vec A; sn_yev : vec A; sn_fitted : vec A; sn_resid : vec A;
    sn_R : mat A; sn_retained : list (list nat); sn_colret : option (list nat);
    sn_xloc : vec A; sn_yloc : vec A; sn_xsca : vec A; sn_ysca : vec A }.

  (** :90-92 the constructor assertions *)
  Definition snipls_init_ok (eta : A) (k : nat) : bool :=
    (n0 <=?! eta) && (eta <?! n1) && (1 <=? k)%nat.

  (** :149-155 fit_transform of the scaler, returning col_loc_, col_sca_ and the
      data.  The code refits one scaler object on X and then on y; a fit leaves
      nothing of the previous one behind (C08), so a fresh scaler is used here. *)
  Definition scaled (c : centre_opt A) (s : scale_opt A) (X : mat A) : res (vec A * vec A * mat A) :=
    match sc_fit_transform env (new_scaler c s n0) (A2 X) with
    | (st, Ok Z) =>
        match a_col_loc st, a_col_sca st with
        | Some m, Some v => Ok (m, v, Z)
        | _, _ => Err AttributeError
        end
    | (_, Err e) => Err e
    end.

  (** :252-257 *)
  Definition snipls_intercept (c : centre_opt A) (r : vec A) : A :=
    match c with
    | CMean => nanmean r
    | CNone => n0
    | _ => nanmedian r
    end.

  (** :101-279 [fit] with a numeric matrix and a vector (or single-column) y;
      column names are not modelled (columns=False).  One-row X with p >= 2 is
      transposed by _check_input while n and p keep their values; this always
      ends in an error, as do differing numbers of cases.  The kind of that
      error is simplified to ValueError: in the code it is an AssertionError of
      nandot if data are missing, and for a one-row X with p responses an
      IndexError (:194) unless no variable is retained.  k = 0 is refused by the
      constructor ([snipls_init_ok]); if n_components is set to 0 afterwards the
      code fails at :225 (goodies is unbound), which is not modelled. *)
  Definition snipls_fit (eta : A) (k : nat) (c : centre_opt A) (s : scale_opt A) (X : mat A) (y : vec A) : res snipls_model :=
    if (length X =? 1)%nat && (2 <=? ncols X)%nat then Err ValueError
    else if negb (length X =? length y)%nat then Err ValueError
    else
    let n := length X in
    let p := ncols X in
    bind (scaled c s X) (fun '(mX, sX, X0) =>                            (* :150-152 *)
    bind (scaled c s (map (fun v => [v]) y)) (fun '(my, sy, Y0) =>       (* :153-155 *)
    let y0 := col 0 Y0 in
    let nan := manynan X0 || vanynan y0 in                               (* :156 *)
    let Smat := if nan then map (fun cj => map (fun ci => nansum (vmul ci cj)) (cols X0)) (cols X0)
                else matmul (transpose X0) X0 in                         (* :157-161 *)
    let s0 := xty nan X0 y0 in                                           (* :162 *)
    let ssx := vsum (map nansum (map (map nsqr) X0)) in
    let ssy := nansum (map nsqr y0) in
    let comps := snipls_loop nan eta ssx ssy k X0 y0 [] in               (* :171-224 *)
    let W := of_cols p (map c_w comps) in
    let P := of_cols p (map c_p comps) in
    bind (match comps with
          | [] => Ok (vzeros p, of_cols p [vzeros p], of_cols n (repeat (vzeros n) k))   (* :244-249 *)
          | _ =>
              bind (inv (matmul (transpose P) W)) (fun PWi =>
              bind (inv (matmul (matmul (transpose W) Smat) W)) (fun Gi =>
              Ok (matvec W (matvec Gi (matvec (transpose W) s0)),
                  matmul W PWi, of_cols n (map c_t comps))))             (* :225-243 *)
          end) (fun '(B, R, T) =>
    if negb (length sX =? p)%nat then Err ValueError else                (* :250 reshape *)
    let Bres := map2 (fun sx b => (nth 0 sy n0 /! sx) *! b) sX B in      (* :250 *)
    let yp := xw nan X Bres in                                           (* :251 *)
    let b0 := snipls_intercept c (vsub y yp) in                          (* :252-257 *)
    let yfit := map (fun v => v +! b0) yp in                             (* :258-259 *)
    Ok (mk_snipls eta k p W P (map c_c comps) T Bres B b0
          (map c_xev comps) (map c_yev comps) yfit (vsub y yfit)
          R (map c_good comps)
          (match comps with [] => None | _ => Some (last (map c_good comps) []) end)
          mX my sX sy)))).

  (** :281-299 [predict] *)
  Definition snipls_predict (f : snipls_model) (x : arr A) : res (vec A) :=
    let '(n, p, Xn) := predict_check_input x in
    if negb (p =? sn_p f)%nat then Err ValueError
    else Ok (map (fun v => v +! sn_intercept f) (matvec Xn (sn_coef f))).

  (** :301-321 [transform] *)
  Definition snipls_transform (f : snipls_model) (x : arr A) : res (mat A) :=
    let '(n, p, Xn) := predict_check_input x in
    if negb (p =? sn_p f)%nat then Err ValueError
    else bind (scale_data Xn (sn_xloc f) (sn_xsca f)) (fun Xnc => Ok (matmul Xnc (sn_R f))).
End Snipls.
Arguments scomp : clear implicits.
Arguments snipls_model : clear implicits.
