(** Model of src/direpack/sprm/sprm.py *)

From Coq Require Import String List Arith ZArith Bool.
Import ListNotations.
From Verif Require Import Num Err Vec M_Utils M_Preproc M_Robcent M_Msupport M_Rm M_Snipls.

(** external routines: [se_rm] holds norm.ppf, chi2.ppf and the preprocessing
    routines (its least-squares routine is not used by sprm); [se_inv] is
    np.linalg.inv; [se_svd X] are U and S of np.linalg.svd(X) *)
Record sp_env (A : Type) : Type := {
  se_rm : rm_env A;
  se_inv : list (list A) -> res (list (list A));
  se_svd : list (list A) -> res (list (list A) * list A)
}.
Arguments se_rm {A}. Arguments se_inv {A}. Arguments se_svd {A}.

(** n_components: __init__ (:122) casts to int, set_params can store anything
    else; [NOther] is a number that is not an int *)
Inductive ncomp_val (A : Type) : Type := NInt (z : Z) | NOther (a : A).
Arguments NInt {A}. Arguments NOther {A}.
(** columns: a bool, or a list/array/Index of names *)
Inductive cols_opt : Type := ColBool (b : bool) | ColNames (l : list string).

(** parameters (:104-137).  [s_eta_float] is type(self.eta) == float;
    [s_pcapp] is start_X_init == "pcapp"; [s_specific] is
    start_cutoff_mode == "specific".  verbose only prints and is left out. *)
Record sp_par (A : Type) : Type := mk_sp_par {
  s_ncomp : ncomp_val A; s_eta : A; s_eta_float : bool;
  s_fun : option mfun; s_p1 : A; s_p2 : A; s_p3 : A;
  s_centre : centre_opt A; s_scale : scale_opt A; s_maxit : nat; s_tol : A;
  s_specific : bool; s_pcapp : bool; s_columns : cols_opt; s_copy : bool
}.
Arguments mk_sp_par {A}. Arguments s_ncomp {A}. Arguments s_eta {A}. Arguments s_eta_float {A}. Arguments s_fun {A}.
Arguments s_p1 {A}. Arguments s_p2 {A}. Arguments s_p3 {A}. Arguments s_centre {A}. Arguments s_scale {A}. Arguments s_maxit {A}.
Arguments s_tol {A}. Arguments s_specific {A}. Arguments s_pcapp {A}. Arguments s_columns {A}. Arguments s_copy {A}.

(** assignments to self.columns and self.scale made by fit *)
Definition set_columns {A} (P : sp_par A) (c : cols_opt) : sp_par A :=
  mk_sp_par (s_ncomp P) (s_eta P) (s_eta_float P) (s_fun P) (s_p1 P) (s_p2 P) (s_p3 P) (s_centre P) (s_scale P)
    (s_maxit P) (s_tol P) (s_specific P) (s_pcapp P) c (s_copy P).
Definition set_scale {A} (P : sp_par A) (s : scale_opt A) : sp_par A :=
  mk_sp_par (s_ncomp P) (s_eta P) (s_eta_float P) (s_fun P) (s_p1 P) (s_p2 P) (s_p3 P) (s_centre P) s
    (s_maxit P) (s_tol P) (s_specific P) (s_pcapp P) (s_columns P) (s_copy P).

(** the parameters shared with rm, so that its cut-offs, starting residuals and
    parameter checks (which are the same lines of code) can be reused *)
Definition sp_rm {A} (P : sp_par A) : rm_par A :=
  mk_rm_par (s_fun P) (s_p1 P) (s_p2 P) (s_p3 P) (s_centre P) (s_scale P) (s_specific P) (s_maxit P) (s_tol P) (s_copy P).

(** colret_: None, positions, or names *)
Inductive colret : Type := CrNone | CrPos (l : list nat) | CrNames (l : list string).

(** fitted attributes (:438-456), self.X.shape[1] ([None] without copy), the cut-offs
    probctx_, hampelbx_, hampelrx_ and the parameters of scalingt_ *)
Record sp_model (A : Type) : Type := mk_sp {
  sp_p : option nat; sp_keep : list nat;
  sp_coef : list A; sp_intercept : A; sp_coef_scaled : list A; sp_intercept_scaled : A;
  sp_resid : list A; sp_fitted : list A; sp_W : list (list A); sp_P : list (list A); sp_R : list (list A); sp_T : list (list A);
  sp_xcw : list A; sp_ycw : list A; sp_cw : list A;
  sp_xloc : list A; sp_yloc : list A; sp_xsca : list A; sp_ysca : list A;
  sp_colret : colret; sp_fun : mfun; sp_ctx : A; sp_cbx : A; sp_crx : A;
  sp_tcentre : centre_opt A; sp_tscale : scale_opt A
}.
Arguments mk_sp {A}. Arguments sp_p {A}. Arguments sp_keep {A}. Arguments sp_coef {A}. Arguments sp_intercept {A}.
Arguments sp_coef_scaled {A}. Arguments sp_intercept_scaled {A}. Arguments sp_resid {A}. Arguments sp_fitted {A}.
Arguments sp_W {A}. Arguments sp_P {A}. Arguments sp_R {A}. Arguments sp_T {A}. Arguments sp_xcw {A}. Arguments sp_ycw {A}.
Arguments sp_cw {A}. Arguments sp_xloc {A}. Arguments sp_yloc {A}. Arguments sp_xsca {A}. Arguments sp_ysca {A}.
Arguments sp_colret {A}. Arguments sp_fun {A}. Arguments sp_ctx {A}. Arguments sp_cbx {A}. Arguments sp_crx {A}.
Arguments sp_tcentre {A}. Arguments sp_tscale {A}.

Section Sprm.
  Context {A : Type} `{Num A}.
  Open Scope num_scope.
  Variable env : sp_env A.

  (** :163-191 the parameter checks.  [type(int) | (n <= 0)] binds before [not]:
      the first test passes every int and every non-positive number, the third
      then rejects the latter. *)
  Definition sp_check (P : sp_par A) (n p : nat) : res (mfun * nat) :=
    match s_ncomp P with
    | NOther _ => Err MyException                                               (* :163-165, :168-169 *)
    | NInt z =>
        if (Z.of_nat n <? z)%Z || (Z.of_nat p <? z)%Z then Err MyException      (* :166-167 *)
        else if (z <=? 0)%Z then Err MyException                                (* :168-169 *)
        else if negb (s_eta_float P) then Err MyException                       (* :170-173 *)
        else if (s_eta P <?! n0) || (n1 <=?! s_eta P) then Err MyException      (* :174-175 *)
        else bind (rm_check (sp_rm P)) (fun f => Ok (f, Z.to_nat z))            (* :176-191 *)
    end.

  (** :192-203; [df] are the column names if X is a DataFrame *)
  Definition sp_columns (P : sp_par A) (df : option (list string)) : res cols_opt :=
    match s_columns P, df with
    | ColBool true, None => Err MyException
    | ColBool true, Some names => Ok (ColNames names)
    | c, _ => Ok c
    end.

  (** numpy indexing of a 1-d array with positions *)
  Definition take_names (idx : list nat) (l : list string) : res (list string) :=
    mapM (fun j => match nth_error l j with Some s => Ok s | None => Err IndexError end) idx.
  (** columns [keep] of a row *)
  Definition sel (keep : list nat) (r : vec A) : vec A := map (fun j => nth j r n0) keep.

  (** :229-251: positions kept (scale at least 1e-5; a NaN scale is kept) *)
  Definition zero_scale (sX : vec A) : list nat := where_ (fun s => s <?! nlit 1 100000) sX.
  Definition vars_to_keep (p : nat) (sX : vec A) : list nat :=
    filter (fun j => negb (existsb (Nat.eqb j) (zero_scale sX))) (seq 0 p).
  Definition sp_drop (c : cols_opt) (p : nat) (sX : vec A) : res cols_opt :=
    match zero_scale sX with
    | [] => Ok c
    | zs =>
        match c with
        | ColBool _ => Ok c
        | ColNames l => bind (take_names zs l) (fun _ => bind (take_names (vars_to_keep p sX) l) (fun l' => Ok (ColNames l')))
        end
    end.

  (** :216-227 scaling of X and y with one VersatileScaler (a fit leaves nothing
      of the previous one behind, C08); location, scale and data of each *)
  Definition sp_scaled (P : sp_par A) (X : mat A) (y : vec A) : res (vec A * vec A * mat A * (vec A * vec A * vec A)) :=
    match sc_fit_transform (re_prep (se_rm env)) (new_scaler (s_centre P) (s_scale P) n0) (A2 X) with
    | (_, Err e) => Err e
    | (st1, Ok Xs) =>
      match sc_fit_transform (re_prep (se_rm env)) st1 (A1 y) with
      | (_, Err e) => Err e
      | (st2, Ok Ys) =>
        match a_col_loc st1, a_col_sca st1, a_col_loc st2, a_col_sca st2 with
        | Some mX, Some sX, Some my, Some sy => Ok (mX, sX, Xs, (my, sy, col 0 Ys))
        | _, _, _, _ => Err AttributeError
        end
      end
    end.

  (** :260-269 the data whose row norms give the starting weights, and relcomp
      (which exists for "pcapp" only).  U[:,0:relcomp] are the leading columns. *)
  Definition sp_start (P : sp_par A) (Xs : mat A) : res (mat A * option nat) :=
    if s_pcapp P then
      bind (se_svd env Xs) (fun '(U, sv) =>
      let s2 := map nsqr sv in
      let spc := map (fun v => v /! vsum s2) s2 in
      bind (relcomp spc) (fun rc =>
      match snd (sc_fit_transform (re_prep (se_rm env)) (new_scaler (s_centre P) (s_scale P) n0) (A2 (map (firstn rc) U))) with
      | Ok Us => Ok (Us, Some rc)
      | Err e => Err e
      end))
    else Ok (Xs, None).

  (** the cut-offs for the X weights at the start (:278-297): chi2 quantiles with
      relcomp degrees of freedom, which is unbound unless start_X_init is "pcapp" *)
  Definition sp_start_cuts (P : sp_par A) (rc : option nat) : res (A * A * A) :=
    if s_specific P then
      match rc with
      | Some k => Ok (ctx (se_rm env) (sp_rm P) k, cbx (se_rm env) (sp_rm P) k, crx (se_rm env) (sp_rm P) k)
      | None => Err UnboundLocalError
      end
    else Ok (cty (se_rm env) (sp_rm P), cby (se_rm env) (sp_rm P), cry (se_rm env) (sp_rm P)).
  (** the cut-offs in the loop: recomputed for Hampel with n_components degrees
      of freedom, whatever start_cutoff_mode (:355-357) *)
  Definition sp_loop_cuts (P : sp_par A) (f : mfun) (k : nat) (start : A * A * A) : A * A * A :=
    match f with
    | MHampel => (re_chi2ppf (se_rm env) (s_p1 P) k, re_chi2ppf (se_rm env) (s_p2 P) k, re_chi2ppf (se_rm env) (s_p3 P) k)
    | _ => start
    end.

  (** parameters of scalingt (:314, :339-341): scale "None" is replaced by "mad" *)
  Definition sp_tsc (P : sp_par A) : scale_opt A := match s_scale P with SNone => SMad | s => s end.

  (** state of the reweighting loop; [q_sw] is a column of WEmat *)
  Record sp_state : Type := mk_ss {
    q_fit : option (snipls_model A); q_wye : vec A; q_wte : vec A; q_we : vec A; q_w0 : list nat;
    q_sw : vec A; q_rold : A; q_diff : A; q_loops : nat }.

  (** one pass :330-377 after the inner fit [m]; [true] is the [break] of :373.
      The residuals (:333-334) are those of the unweighted response with respect to
      the fitted values of the weighted data. *)
  Definition sp_body (P : sp_par A) (f : mfun) (cuts : A * A * A) (n : nat) (ys : vec A) (st : sp_state) (m : snipls_model A)
    : res (sp_state * bool) :=
    let T := map2 (fun a r => map (fun v => v /! a) r) (q_sw st) (sn_T m) in    (* :330-331 *)
    let r := std_resid (vsub ys (sn_fitted m)) in                               (* :333-338 *)
    match snd (sc_fit_transform (re_prep (se_rm env)) (new_scaler (s_centre P) (sp_tsc P) n0) (A2 T)) with   (* :339-342 *)
    | Err e => Err e
    | Ok dt =>
        let '(c, b, q) := cuts in
        let wte := mweights f c b q (start_dx dt) in                            (* :343-361 *)
        let wye := mweights f (cty (se_rm env) (sp_rm P)) (cby (se_rm env) (sp_rm P)) (cry (se_rm env) (sp_rm P)) r in
        let b2sum := vsum (map nsqr (sn_coef m)) in                             (* :362 *)
        let diff := nabs (b2sum -! q_rold st) /! q_rold st in                   (* :363 *)
        let we0 := vmul wye wte in                                              (* :366 *)
        let w0 := low we0 in                                                    (* :367-371 *)
        let we := floor_w we0 in
        if (n <=? 2 * length w0)%nat                                            (* :372-377 *)
        then Ok (mk_ss (Some m) wye wte we w0 (q_sw st) b2sum diff (q_loops st), true)
        else Ok (mk_ss (Some m) wye wte we w0 (map nsqrt we) b2sum diff (S (q_loops st)), false)
    end.

  (** colret_ of the inner snipls fit, with the names passed to it *)
  Definition sp_colret_of (c : cols_opt) (m : snipls_model A) : res colret :=
    match sn_colret m, c with
    | None, _ => Ok CrNone
    | Some l, ColBool _ => Ok (CrPos l)
    | Some l, ColNames names => bind (take_names l names) (fun s => Ok (CrNames s))
    end.

  (** :328 [while (difference > tol) & (loops < maxit)]; [fuel] bounds the
      recursion only.  The first component lists the inner fits made. *)
  Fixpoint sp_loop (fuel : nat) (P : sp_par A) (f : mfun) (k : nat) (cuts : A * A * A) (Xs : mat A) (ys : vec A) (st : sp_state)
    : list (mat A * vec A) * option (res sp_state) :=
    match fuel with
    | O => ([], None)
    | S fuel' =>
        if (s_tol P <?! q_diff st) && (q_loops st <? s_maxit P)%nat then
          let Xw := row_scale (q_sw st) Xs in
          let yw := vmul ys (q_sw st) in
          match bind (snipls_fit (re_prep (se_rm env)) (se_inv env) (s_eta P) k CMean SNone Xw yw) (fun m =>
                bind (sp_colret_of (s_columns P) m) (fun _ =>
                sp_body P f cuts (length Xs) ys st m)) with
          | Err e => ([(Xw, yw)], Some (Err e))
          | Ok (st', true) => ([(Xw, yw)], Some (Ok st'))
          | Ok (st', false) =>
              let '(calls, r) := sp_loop fuel' P f k cuts Xs ys st' in ((Xw, yw) :: calls, r)
          end
        else ([], Some (Ok st))
    end.

  (** :386-456 after the loop.  Without a pass, [w0] is unbound unless some
      starting weight was low, and the inner fit has no loadings. *)
  Definition sp_finish (P : sp_par A) (f : mfun) (k : nat) (cuts : A * A * A) (keep : list nat) (p0 : nat)
      (X Xs : mat A) (y ys : vec A) (mX sXfull sX my sy : vec A) (st : sp_state) : res (sp_model A) :=
    match q_fit st with
    | None => Err (match q_w0 st with [] => UnboundLocalError | _ => AttributeError end)   (* :387, :392 *)
    | Some m =>
        let b := sn_coef m in
        let w := set_idx (q_w0 st) n0 (q_we st) in                              (* :386-391 *)
        let wt := set_idx (q_w0 st) n0 (q_wte st) in
        let wy := set_idx (q_w0 st) n0 (q_wye st) in
        let Xrw := row_scale (map nsqrt (q_sw st)) Xs in                        (* :395 *)
        match snd (sc_fit_transform (re_prep (se_rm env)) (new_scaler (s_centre P) SNone n0) (A2 Xrw)) with   (* :396-397 *)
        | Err e => Err e
        | Ok _ =>
          let T := matmul Xs (sn_R m) in                                        (* :398 *)
          if negb (length sX =? ncols Xs)%nat then Err ValueError else          (* :407 reshape *)
          let bres := map2 (fun sx bj => (nth 0 sy n0 /! sx) *! bj) sX b in     (* :407 *)
          let yp := matvec X bres in                                            (* :408 *)
          let icpt := match s_centre P with
                      | CMean => vmean (vsub y yp)
                      | CNone => n0
                      | _ => np_median (vsub y yp)
                      end in                                                    (* :409-414 *)
          let yfit := map (fun v => v +! icpt) yp in                            (* :416 *)
          (* :417-425; ys is 1-d and Xs b is n x 1, so the difference is n x n *)
          let diffs := flat_map (fun q => map (fun v => v -! q) ys) (matvec Xs b) in
          let b0 := match s_scale P with
                    | SNone => match s_centre P with
                               | CMean => vmean (vsub y (matvec X b))
                               | CNone => n0
                               | _ => np_median (vsub y (matvec X b))
                               end                                              (* :428-434 *)
                    | _ => match s_centre P with CMean => vmean diffs | _ => np_median diffs end
                    end in
          bind (sp_colret_of (s_columns P) m) (fun cr =>
          let '(cx, bx, rx) := cuts in
          Ok (mk_sp (if s_copy P then Some p0 else None) keep bres icpt b b0 (vsub y yfit) yfit
                (sn_W m) (sn_P m) (sn_R m) T wt wy w mX my sXfull sy cr f cx bx rx (s_centre P) (sp_tsc P)))
        end
    end.

  (** :260-456 everything after the removal of zero-scale variables; [X], [Xs],
      [sX] are already restricted to the variables kept *)
  Definition sp_estimate (P : sp_par A) (f : mfun) (k : nat) (keep : list nat) (p0 : nat) (X Xs : mat A) (y ys : vec A)
      (mX sXfull sX my sy : vec A) : list (mat A * vec A) * res (sp_model A) :=
    match sp_start P Xs with
    | Err e => ([], Err e)
    | Ok (Us, rc) =>
      match sp_start_cuts P rc with
      | Err e => ([], Err e)
      | Ok (c, b, q) =>
        let wx := mweights f c b q (start_dx Us) in
        let wy := mweights f (cty (se_rm env) (sp_rm P)) (cby (se_rm env) (sp_rm P)) (cry (se_rm env) (sp_rm P)) (start_dy (sp_rm P) y ys) in
        let we := floor_w (vmul wx wy) in                                       (* :302-308 *)
        let st0 := mk_ss None wy wx we (low (vmul wx wy)) (map nsqrt we) (nlit 1 100000) n1 1 in
        let cuts := sp_loop_cuts P f k (c, b, q) in
        let '(calls, r) := sp_loop (S (s_maxit P)) P f k cuts Xs ys st0 in
        (calls, match r with
                | Some (Ok st) => sp_finish P f k cuts keep p0 X Xs y ys mX sXfull sX my sy st
                | Some (Err e) => Err e
                | None => Err AssertionError  (* out of fuel: proved impossible *)
                end)
      end
    end.

  (** :145-457 [fit] for a numeric matrix X (with the column names [df] if it is a
      DataFrame) and a vector or one-column y: the parameters afterwards, the
      inner fits made and the result.  A one-row X with two or more columns is
      transposed by _check_input while n and p keep their values; this always ends
      in an error, whose kind is not modelled.  Scale callables are taken to
      return p values. *)
  Definition sprm_run (P : sp_par A) (df : option (list string)) (X : mat A) (y : vec A)
    : sp_par A * (list (mat A * vec A) * res (sp_model A)) :=
    let n := length X in
    let p := ncols X in
    match sp_check P n p with
    | Err e => (P, ([], Err e))
    | Ok (f, k) =>
      match sp_columns P df with
      | Err e => (P, ([], Err e))
      | Ok c1 =>
        let P1 := set_columns P c1 in
        if negb (length y =? n)%nat then (P1, ([], Err MyException))            (* :204-208 *)
        else if (n =? 1)%nat && (2 <=? p)%nat then (P1, ([], Err ValueError))
        else
        let P2 := match s_scale P1 with
                  | STau2 => if existsb (fun v => v =?! n0) (mad X) then set_scale P1 SMad else P1   (* :210-214 *)
                  | _ => P1
                  end in
        match sp_scaled P2 X y with
        | Err e => (P2, ([], Err e))
        | Ok (mX, sX, Xs, (my, sy, ys)) =>
          match sp_drop c1 p sX with
          | Err e => (P2, ([], Err e))
          | Ok c2 =>
            let P3 := set_columns P2 c2 in
            let keep := vars_to_keep p sX in
            if (length keep <? k)%nat then (P3, ([], Err MyException))          (* :252-256 *)
            else match zero_scale sX with
                 | [] => (P3, sp_estimate P3 f k keep p X Xs y ys mX sX sX my sy)
                 | _ => (P3, sp_estimate P3 f k keep p (map (sel keep) X) (map (sel keep) Xs) y ys mX sX (sel keep sX) my sy)
                 end
          end
        end
      end
    end.
  Definition sprm_fit P df X y : res (sp_model A) := snd (snd (sprm_run P df X y)).

  (** :460-478 [predict]; the n x 1 result is given by its entries *)
  Definition sprm_predict (m : sp_model A) (x : arr A) : res (vec A) :=
    let '(n, p, Xn) := predict_check_input x in
    match sp_p m with
    | None => Err AttributeError
    | Some q => if negb (p =? q)%nat then Err ValueError
                else Ok (map (fun v => v +! sp_intercept m) (matvec (map (sel (sp_keep m)) Xn) (sp_coef m)))
    end.

  (** :480-505 [transform] *)
  Definition sprm_transform (m : sp_model A) (x : arr A) : res (mat A) :=
    let '(n, p, Xn) := predict_check_input x in
    match sp_p m with
    | None => Err AttributeError
    | Some q => if negb (p =? q)%nat then Err ValueError
                else bind (scale_data (map (sel (sp_keep m)) Xn) (sel (sp_keep m) (sp_xloc m)) (sel (sp_keep m) (sp_xsca m)))
                          (fun Xnc => Ok (matmul Xnc (sp_R m)))
    end.

  (** :507-536 [weightnewx]: the scores are standardised with a scaler fitted on
      the new scores themselves *)
  Definition sprm_weightnewx (m : sp_model A) (x : arr A) : res (vec A) :=
    bind (sprm_transform m x) (fun Tn =>
    match snd (sc_fit_transform (re_prep (se_rm env)) (new_scaler (sp_tcentre m) (sp_tscale m) n0) (A2 Tn)) with
    | Err e => Err e
    | Ok dtn => Ok (mweights (sp_fun m) (sp_ctx m) (sp_cbx m) (sp_crx m) (start_dx dtn))
    end).

  (** sklearn's r2_score with sample weights, as called by RegressorMixin.score;
      lengths must agree (check_consistent_length).  Constant responses (zero
      denominator) are special-cased by sklearn and not modelled. *)
  Definition r2_score (y yp w : vec A) : res A :=
    if negb ((length y =? length yp)%nat && (length y =? length w)%nat) then Err ValueError
    else let ybar := vsum (map2 nmul w y) /! vsum w in
         Ok (n1 -! vsum (map2 (fun w e => w *! nsqr e) w (vsub y yp)) /! vsum (map2 (fun w v => w *! nsqr (v -! ybar)) w y)).
  (** :538-555 [valscore]; [scoring] is [Some true] for "weighted", [Some false]
      for "normal", [None] for any other string *)
  Definition sprm_valscore (m : sp_model A) (x : arr A) (yn : vec A) (scoring : option bool) : res A :=
    let '(n, p, Xn) := predict_check_input x in
    match sp_p m with
    | None => Err AttributeError
    | Some q =>
        if negb (p =? q)%nat then Err ValueError
        else match scoring with
             | None => Err ValueError
             | Some weighted =>
                 bind (sprm_predict m x) (fun yp =>
                 r2_score yn yp (if weighted then sp_cw m else map (fun _ => n1) yn))
             end
    end.
End Sprm.
