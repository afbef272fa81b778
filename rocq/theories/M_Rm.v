(** Model of src/direpack/sprm/rm.py *)

From Coq Require Import List Arith ZArith Bool.
Import ListNotations.
From Verif Require Import Num Err Vec M_Utils M_Preproc M_Robcent M_Msupport.

(** external routines: scipy.stats.norm.ppf, scipy.stats.chi2.ppf,
    numpy.linalg.lstsq(...)[0] *)
Record rm_env (A : Type) : Type := {
  re_prep : prep_env A;
  re_normppf : A -> A;
  re_chi2ppf : A -> nat -> A;
  re_lstsq : list (list A) -> list A -> res (list A)
}.
Arguments re_prep {A}. Arguments re_normppf {A}. Arguments re_chi2ppf {A}. Arguments re_lstsq {A}.

(** constructor parameters (rm.py:60-83); [r_fun] is [None] for a string other
    than 'Hampel', 'Huber', 'Fair'; [r_specific] is start_cutoff_mode == 'specific' *)
Record rm_par (A : Type) : Type := mk_rm_par {
  r_fun : option mfun; r_p1 : A; r_p2 : A; r_p3 : A;
  r_centre : centre_opt A; r_scale : scale_opt A;
  r_specific : bool; r_maxit : nat; r_tol : A; r_copy : bool
}.
Arguments mk_rm_par {A}. Arguments r_fun {A}. Arguments r_p1 {A}. Arguments r_p2 {A}. Arguments r_p3 {A}.
Arguments r_centre {A}. Arguments r_scale {A}. Arguments r_specific {A}. Arguments r_maxit {A}.
Arguments r_tol {A}. Arguments r_copy {A}.

(** fitted attributes (:246-259); [rm_p] is self.X.shape[1], set only with copy=True *)
Record rm_model (A : Type) : Type := mk_rm {
  rm_p : option nat;
  rm_coef : list A; rm_intercept : A; rm_coef_scaled : list A; rm_intercept_scaled : A;
  rm_resid : list A; rm_fitted : list A;
  rm_xcw : list A; rm_ycw : list A; rm_cw : list A;
  rm_xloc : list A; rm_yloc : list A; rm_xsca : list A; rm_ysca : list A
}.
Arguments mk_rm {A}. Arguments rm_p {A}. Arguments rm_coef {A}. Arguments rm_intercept {A}. Arguments rm_coef_scaled {A}.
Arguments rm_intercept_scaled {A}. Arguments rm_resid {A}. Arguments rm_fitted {A}. Arguments rm_xcw {A}.
Arguments rm_ycw {A}. Arguments rm_cw {A}. Arguments rm_xloc {A}. Arguments rm_yloc {A}. Arguments rm_xsca {A}. Arguments rm_ysca {A}.

Section Rm.
  Context {A : Type} `{Num A}.
  Open Scope num_scope.
  Variable env : rm_env A.

  (** np.median of a vector that may contain NaN *)
  Definition np_median (v : vec A) : A := if vanynan v then n0 /! n0 else vmedian v.
  (** the constants 1.4826 and 1e-06 *)
  Definition c14826 : A := nlit 14826 10000.
  Definition wmin : A := nlit 1 1000000.

  (** rm.py:96-111: parameter checks, in this order *)
  Definition rm_check (P : rm_par A) : res mfun :=
    match r_fun P with
    | None => Err MyException                                                   (* :96-99 *)
    | Some f =>
        if (n1 <?! r_p1 P) || (r_p1 P <=?! n0) then Err MyException             (* :100-101 *)
        else match f with
             | MHampel =>                                                       (* :102-110 *)
                 if negb ((r_p1 P <?! r_p2 P) && (r_p2 P <?! r_p3 P) && (r_p3 P <=?! n1))
                 then Err MyException else Ok f
             | _ => Ok f
             end
    end.

  (** cut-offs (:138-164) *)
  Definition cty (P : rm_par A) : A := re_normppf env (r_p1 P).
  Definition cby (P : rm_par A) : A := re_normppf env (r_p2 P).
  Definition cry (P : rm_par A) : A := re_normppf env (r_p3 P).
  Definition ctx (P : rm_par A) (p : nat) : A := if r_specific P then re_chi2ppf env (r_p1 P) p else cty P.
  Definition cbx (P : rm_par A) (p : nat) : A := if r_specific P then re_chi2ppf env (r_p2 P) p else cby P.
  Definition crx (P : rm_par A) (p : nat) : A := if r_specific P then re_chi2ppf env (r_p3 P) p else cry P.

  (** :131-132 distances of the scaled cases; :133-137 starting residuals
      (signed unless centre and scale are median and mad) *)
  Definition start_dx (Xs : mat A) : vec A :=
    let d := map (fun r => nsqrt (vsum (map nsqr r))) Xs in
    map (fun v => v /! np_median d) d.
  Definition start_dy (P : rm_par A) (y ys : vec A) : vec A :=
    match r_centre P, r_scale P with
    | CMedian, SMad => map nabs ys
    | _, _ =>
        let m := np_median y in
        let s := c14826 *! np_median (map (fun v => nabs (v -! m)) y) in
        map (fun v => (v -! m) /! s) y
    end.

  (** :173-178 and :206-210: weights below 1e-06 are raised to it; [w0] are their positions *)
  Definition low (w : vec A) : list nat := where_ (fun v => v <?! wmin) w.
  Definition floor_w (w : vec A) : vec A := set_idx (low w) wmin w.

  (** rows of [X] multiplied by the entries of [u] (np.multiply with WEmat) *)
  Definition row_scale (u : vec A) (X : mat A) : mat A := map2 (fun a r => vscale a r) u X.

  (** :192-196 absolute residuals divided by 1.4826 times their median; if at
      least half of them are zero, the median of the non-zero ones *)
  Definition std_resid (r : vec A) : vec A :=
    let zeros := length (filter (fun v => v =?! n0) r) in
    let m := if (2 * zeros <? length r)%nat then np_median (map nabs r)
             else np_median (map nabs (filter (fun v => negb (v =?! n0)) r)) in
    map (fun v => nabs v /! (c14826 *! m)) r.

  (** state of the reweighting loop; [l_sw] is a column of WEmat *)
  Record rm_state : Type := mk_rs {
    l_b : option (vec A); l_wye : vec A; l_we : vec A; l_w0 : list nat;
    l_sw : vec A; l_rold : A; l_diff : A; l_loops : nat }.

  (** one pass of the loop body :188-216 after [lstsq] returned [b]; the boolean
      is [true] for the [break] of :212, which leaves WEmat as it was *)
  Definition rm_body (f : mfun) (c b2 r3 : A) (Xs : mat A) (ys wx : vec A) (st : rm_state) (b : vec A) : rm_state * bool :=
    let yp := matvec Xs b in                                                    (* :190 *)
    let r := std_resid (vsub ys yp) in                                          (* :191-195 *)
    let wye := mweights f c b2 r3 r in                                          (* :196-202 *)
    let b2sum := vsum (map nsqr b) in                                           (* :203 *)
    let diff := nabs (b2sum -! l_rold st) /! l_rold st in                       (* :204 *)
    let we0 := vmul wye wx in                                                   (* :206 *)
    let w0 := low we0 in                                                        (* :207-211 *)
    let we := floor_w we0 in
    if (length Xs <=? 2 * length w0)%nat                                        (* :212 *)
    then (mk_rs (Some b) wye we w0 (l_sw st) b2sum diff (l_loops st), true)
    else (mk_rs (Some b) wye we w0 (map nsqrt we) b2sum diff (S (l_loops st)), false).

  (** :187 [while (difference > tol) & (loops < maxit)].  [fuel] bounds the
      recursion only; [None] in the result means that it ran out.  The first
      component lists the least-squares problems solved. *)
  Fixpoint rm_loop (fuel : nat) (P : rm_par A) (f : mfun) (Xs : mat A) (ys wx : vec A) (st : rm_state)
    : list (mat A * vec A) * option (res rm_state) :=
    match fuel with
    | O => ([], None)
    | S fuel' =>
        if (r_tol P <?! l_diff st) && (l_loops st <? r_maxit P)%nat then
          let Xw := row_scale (l_sw st) Xs in
          let yw := vmul ys (l_sw st) in
          match re_lstsq env Xw yw with
          | Err e => ([(Xw, yw)], Some (Err e))
          | Ok b =>
              let '(st', brk) := rm_body f (cty P) (cby P) (cry P) Xs ys wx st b in
              if brk then ([(Xw, yw)], Some (Ok st'))
              else let '(calls, r) := rm_loop fuel' P f Xs ys wx st' in ((Xw, yw) :: calls, r)
          end
        else ([], Some (Ok st))
    end.

  (** :226-245 everything after the loop.  [st2] is the scaler, last fitted on y.
      Without a pass of the loop [b] does not exist. *)
  Definition rm_finish (P : rm_par A) (X Xs : mat A) (y ys : vec A) (wx : vec A)
      (mX sX my sy : vec A) (st2 : scaler A) (st : rm_state) : res (rm_model A) :=
    match l_b st with
    | None => Err UnboundLocalError
    | Some b =>
        let p := ncols X in
        let w := set_idx (l_w0 st) n0 (l_we st) in                              (* :226-230 *)
        let wx' := set_idx (l_w0 st) n0 wx in
        let wy' := set_idx (l_w0 st) n0 (l_wye st) in
        let Xrw := row_scale (map nsqrt (l_sw st)) Xs in                        (* :231 *)
        match snd (sc_fit_transform (re_prep env) (sc_set_params st2 None (Some SNone) None) (A2 Xrw)) with  (* :232-233 *)
        | Err e => Err e
        | Ok _ =>
          if negb (length sX =? p)%nat then Err ValueError else
          let bres := map2 (fun sx bj => (nth 0 sy n0 /! sx) *! bj) sX b in     (* :234 *)
          let yp := matvec X bres in                                            (* :235 *)
          let centre_of v := match r_centre P with CMean => vmean v | _ => np_median v end in
          let icpt := centre_of (vsub y yp) in                                  (* :236-239 *)
          let yfit := map (fun v => v +! icpt) yp in                            (* :240 *)
          (* :241-249; ys is 1-d and Xs b is n x 1, so the difference is n x n *)
          bind (match r_scale P with
                | SNone => match r_centre P with
                           | CMean => let i := vmean (vsub y (matvec X b)) in Ok (i, i)   (* :251-252 *)
                           | _ => Err UnboundLocalError                         (* :254: ytil *)
                           end
                | _ => Ok (icpt, centre_of (flat_map (fun q => map (fun v => v -! q) ys) (matvec Xs b)))
                end) (fun '(ic, b0) =>
          Ok (mk_rm (if r_copy P then Some p else None) bres ic b b0 (vsub y yfit) yfit
                wx' wy' w mX my sX sy))
        end
    end.

  (** :91-260 [fit] for a numeric matrix and a vector (or one-column) y, together
      with the least-squares problems solved.  A one-row X with two or more
      columns is transposed by _check_input while [p] keeps its value; the code
      then fails at :190 (or, without a pass of the loop, at :234); errors of the
      scaler in this degenerate case are not modelled. *)
  Definition rm_run (P : rm_par A) (X : mat A) (y : vec A) : list (mat A * vec A) * res (rm_model A) :=
    match rm_check P with
    | Err e => ([], Err e)
    | Ok f =>
      if negb (length y =? length X)%nat then ([], Err MyException)             (* :120-122 *)
      else if (length X =? 1)%nat && (2 <=? ncols X)%nat
      then ([], Err (if (r_tol P <?! n1) && (1 <? r_maxit P)%nat then ValueError else UnboundLocalError))
      else
      match sc_fit_transform (re_prep env) (new_scaler (r_centre P) (r_scale P) n0) (A2 X) with   (* :124-127 *)
      | (_, Err e) => ([], Err e)
      | (st1, Ok Xs) =>
        match sc_fit_transform (re_prep env) st1 (A1 y) with                    (* :128-130 *)
        | (_, Err e) => ([], Err e)
        | (st2, Ok Ys) =>
          match a_col_loc st1, a_col_sca st1, a_col_loc st2, a_col_sca st2 with
          | Some mX, Some sX, Some my, Some sy =>
            let p := ncols X in
            let ys := col 0 Ys in
            let wx := mweights f (ctx P p) (cbx P p) (crx P p) (start_dx Xs) in
            let wy := mweights f (cty P) (cby P) (cry P) (start_dy P y ys) in
            let we := floor_w (vmul wx wy) in                                   (* :172-178 *)
            let st0 := mk_rs None wy we (low (vmul wx wy)) (map nsqrt we) (nlit 1 100000) n1 1 in
            let '(calls, r) := rm_loop (S (r_maxit P)) P f Xs ys wx st0 in
            (calls, match r with
                    | Some (Ok st) => rm_finish P X Xs y ys wx mX sX my sy st2 st
                    | Some (Err e) => Err e
                    | None => Err AssertionError  (* out of fuel: proved impossible *)
                    end)
          | _, _, _, _ => ([], Err AttributeError)
          end
        end
      end
    end.
  Definition rm_fit (P : rm_par A) (X : mat A) (y : vec A) : res (rm_model A) := snd (rm_run P X y).

  (** :263-271 [predict]; the n x 1 result is given by its entries *)
  Definition rm_predict (m : rm_model A) (x : arr A) : res (vec A) :=
    let '(n, p, Xn) := predict_check_input x in
    match rm_p m with
    | None => Err AttributeError
    | Some q => if negb (p =? q)%nat then Err ValueError
                else Ok (map (fun v => v +! rm_intercept m) (matvec Xn (rm_coef m)))
    end.
End Rm.
