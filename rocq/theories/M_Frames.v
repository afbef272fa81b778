(** Responses given as pandas objects: src/direpack/utils/utils.py:24-28
    (convert_y_input) and what ppdire.fit and sudire.fit make of its result.
    A Series is one-dimensional and is treated like the array of its values; a
    DataFrame of n rows and one column becomes an array of one row and n columns. *)

From Coq Require Import String List Arith ZArith Bool.
Import List. Import ListNotations.
From Verif Require Import Num Err Vec M_Utils M_Preproc M_Robcent M_Dicomo M_Ipopt M_Ppdire M_Sudire.

Section Frames.
  Context {A : Type} `{Num A}.
  Open Scope num_scope.

  (** sudire.py:348-361: the first check is made with the number of rows of the
      DataFrame, the second (:356-361) with that of the converted array *)
  Definition frame_response (n : nat) (Y : mat A) : arr A := if (length Y =? n)%nat then convert_y_input_pandas (A2 Y) else A2 Y.
  (** sudire.fit(X, y) with the DataFrame whose values are [Y] *)
  Definition sd_fit_frame (env : sd_env A) (st : sstate A) (X Y : mat A) (metric : list A -> list A -> A) (bias : bool) : sstate A * res (smodel A) :=
    sd_fit env st X (frame_response (length X) Y) metric bias.

  (** whether ppdire.fit compressed the data (ppdire.py:332-348) *)
  Definition compressed (env : pp_env A) (prm : pparams A) (X : mat A) : bool :=
    (length X <? ncols X)%nat && pp_compress prm &&
    match pe_svd env (transpose X) with
    | Ok (_, sv, U) => negb (existsb (fun v => v =?! n0) (mad (map (fun r => map2 nmul r sv) (transpose U))))
    | Err _ => false
    end.

  (** ppdire.py:710-730 with y of shape (1, n): intercept_, fitted_ and
      residuals_ (both row by row).  [f] is np.matmul(X, bi), a column unless
      the data were compressed; then it is one-dimensional. *)
  Definition finish_frame (prm : pparams A) (dims : bool) (y f : vec A) : res (inter A * vec A * arr A) :=
    let D := if dims then [vsub y f] else map (fun b => map (fun a => a -! b) y) f in       (* y - np.matmul(X, bi) *)
    bind (if is_mean (pp_center prm)
          then bind (mapM (trim_mean1 (pp_trim prm)) (cols D)) (fun v => Ok (IMany v))
          else Ok (IOne (vmedian (concat D)))) (fun ic =>
    match ic with
    | IMany v =>
        if dims then Ok (ic, vadd f v, A2 [vsub y (vadd f v)])
        else let F := map (fun b => map (fun a => b +! a) v) f in Ok (ic, concat F, A2 (map (vsub y) F))
    | IOne a =>
        let F := map (fun b => b +! a) f in
        Ok (ic, F, if dims then A2 [vsub y F] else A2 (map (fun b => map (fun c => c -! b) y) F))
    end).

  (** the arguments of fit with another response *)
  Definition with_response (f : fkw A) (y : yarg A) : fkw A := mk_fkw y (f_h f) (f_bias f) (f_option f) (f_dmetric f).
  (** ppdire.fit with the DataFrame whose values are [Y] as response, given by keyword or
      not ([kwy]); [f] the other arguments.  Up to the
      intercepts nothing differs from the array: the scaler turns the row back
      into a column (:388), and only the scaled response is used (:671, :676).
      Simplified: with center_data=False or quantile regression, where the row
      itself is used (:392, :679), the products of unequal shapes are a
      ValueError. *)
  Definition pp_fit_frame (env : pp_env A) (prm : pparams A) (d : dict) (X Y : mat A) (kwy : bool) (f : fkw A) : pparams A * dict * res (pp_model A) :=
    let '(prm', d', r) := pp_fit env prm d X (with_response f (if kwy then YKw (A2 Y) else YPos (A2 Y))) in
    (prm', d', bind r (fun m =>
     match pm_y m with
     | None => Err AttributeError
     | Some ym =>
         if negb (pp_center_data prm') || (pp_regopt prm' =? "quantile")%string then Err ValueError else
         let k := ncols (ym_coef ym) in
         let bi := if (k =? 0)%nat then vzeros (ncols X) else col (k - 1) (ym_coef ym) in
         bind (finish_frame prm' (compressed env prm' X) (col 0 Y) (matvec X bi)) (fun '(ic, yfit, r) =>
         let b0 := match scale_name prm' with Ok SNone => ic | _ => ym_intercept_scaled ym end in     (* :721-726 *)
         Ok (mk_pm (pm_p m) (pm_W m) (pm_P m) (pm_R m) (pm_T m) (pm_crit m) (pm_max m) (pm_loc m) (pm_sca m) (pm_2d m)
               (Some (mk_ym (ym_coef ym) (ym_coef_scaled ym) ic b0 yfit r (ym_C ym) (ym_loc ym) (ym_sca ym)))))
     end)).
End Frames.
