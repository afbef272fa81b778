(** Model of src/direpack/sudire/sudire.py *)

From Coq Require Import String List Arith ZArith Bool.
Import List. Import ListNotations.
From Verif Require Import Num Err Vec M_Utils M_Preproc M_Robcent M_Dicomo M_Ipopt M_SdrUtils.

(** External routines: the scaler's (M_Robcent); np.linalg.eigh; inv(sqrtm(_));
    scipy.linalg.inv; np.linalg.svd(_, full_matrices=False); scipy.linalg.orth;
    dcor.distance_covariance_sqr of a matrix and a response; sm.OLS(y, X).fit()
    .params; minimize_ipopt(fun, x0, constraints, options).x (options, objective,
    equality constraints, start). *)
Record sd_env (A : Type) : Type := mk_sdenv {
  se_prep : prep_env A; se_eigh : mat A -> res (vec A * mat A); se_isqrt : mat A -> res (mat A); se_inv : mat A -> res (mat A);
  se_svd : mat A -> res (mat A * vec A * mat A); se_orth : mat A -> res (mat A); se_dcov : mat A -> vec A -> res A;
  se_ols : mat A -> vec A -> res (vec A); se_ipopt : dict -> (vec A -> res A) -> list (vec A -> res A) -> vec A -> res (vec A) }.
Arguments mk_sdenv {A}. Arguments se_prep {A}. Arguments se_eigh {A}. Arguments se_isqrt {A}. Arguments se_inv {A}. Arguments se_svd {A}.
Arguments se_orth {A}. Arguments se_dcov {A}. Arguments se_ols {A}. Arguments se_ipopt {A}.

(** sudiremeth *)
Inductive meth (A : Type) : Type := MSir | MSave | MDr | MPhd | MIht | MDcov | MBcov | MMdd | MUser (f : vec A -> sargs A -> res A).
Arguments MSir {A}. Arguments MSave {A}. Arguments MDr {A}. Arguments MPhd {A}. Arguments MIht {A}. Arguments MDcov {A}. Arguments MBcov {A}. Arguments MMdd {A}. Arguments MUser {A}.

(** Constructor parameters (sudire.py:140-180) without those fit does not read
    (dmetric, fit_ols, verbose) and the optimizer ones, which are part of the
    state.  [sp_cont]: response_type == "continuous". *)
Record sparams (A : Type) : Type := mk_sp {
  sp_meth : meth A; sp_ncomp : nat; sp_trim : A; sp_center : centre_opt A; sp_center_data : bool; sp_scale_data : bool; sp_whiten : bool;
  sp_compress : bool; sp_slices : nat; sp_copy : bool; sp_cont : bool; sp_return : bool }.
Arguments mk_sp {A}. Arguments sp_meth {A}. Arguments sp_ncomp {A}. Arguments sp_trim {A}. Arguments sp_center {A}. Arguments sp_center_data {A}.
Arguments sp_scale_data {A}. Arguments sp_whiten {A}. Arguments sp_compress {A}. Arguments sp_slices {A}. Arguments sp_copy {A}. Arguments sp_cont {A}. Arguments sp_return {A}.

(** An instance: parameters, the attribute X0, optimizer_start,
    optimizer_constraints, optimizer_arguments (None: not set), optimizer_options *)
Record sstate (A : Type) : Type := mk_ss {
  ss_prm : sparams A; ss_X0 : option (mat A); ss_start : option (vec A); ss_cons : option (list (vec A -> res A)); ss_args : option (sargs A); ss_dict : dict }.
Arguments mk_ss {A}. Arguments ss_prm {A}. Arguments ss_X0 {A}. Arguments ss_start {A}. Arguments ss_cons {A}. Arguments ss_args {A}. Arguments ss_dict {A}.

(** the fitted attributes x_loadings_, x_scores_, proj_mat_, whitening_, x_loc_,
    x_sca_, and of ols_obj_ params and fittedvalues *)
Record smodel (A : Type) : Type := mk_sm {
  sm_P : mat A; sm_T : mat A; sm_proj : mat A; sm_K : option (mat A); sm_loc : vec A; sm_sca : vec A; sm_ols : vec A; sm_fitted : vec A }.
Arguments mk_sm {A}. Arguments sm_P {A}. Arguments sm_T {A}. Arguments sm_proj {A}. Arguments sm_K {A}. Arguments sm_loc {A}. Arguments sm_sca {A}. Arguments sm_ols {A}. Arguments sm_fitted {A}.

Section Sudire.
  Context {A : Type} `{Num A}.
  Open Scope num_scope.
  Variable env : sd_env A.

  (** sudire.py:182-206 the constructor check (the method names are a type here) *)
  Definition sd_init (prm : sparams A) (start : option (vec A)) (cons : option (list (vec A -> res A))) (args : option (sargs A)) (d : dict) : res (sstate A) :=
    match sp_center prm with CMean | CMedian => Ok (mk_ss prm None start cons args d) | _ => Err ValueError end.

  (** statsmodels add_constant (has_constant='skip', prepend): data with a
      constant column without zeros are returned unchanged *)
  Definition const_column (c : vec A) : bool := forallb (fun v => v =?! hd n0 c) c && forallb (fun v => negb (v =?! n0)) c.
  Definition add_constant (X : mat A) : mat A := if existsb const_column (cols X) then X else map (cons n1) X.

  (** :266-270 *)
  Definition sd_whitening (prm : sparams A) : sparams A :=
    if sp_whiten prm
    then mk_sp (sp_meth prm) (sp_ncomp prm) (sp_trim prm) (sp_center prm) true false true false (sp_slices prm) (sp_copy prm) (sp_cont prm) (sp_return prm)
    else prm.

  (** VersatileScaler(center, scale, trimming).fit_transform *)
  Definition sd_scaled (c : centre_opt A) (s : scale_opt A) (t : A) (X : mat A) : res (vec A * vec A * mat A) :=
    match sc_fit_transform (se_prep env) (new_scaler c s t) (A2 X) with
    | (st, Ok Z) => match a_col_loc st, a_col_sca st with Some m, Some v => Ok (m, v, Z) | _, _ => Err AttributeError end
    | (_, Err e) => Err e
    end.
  Definition sd_is_mean (c : centre_opt A) : bool := match c with CMean => true | _ => false end.

  (** the prepared data (:271-346): Xs, N2, V if compressed, p, x_loc_, x_sca_,
      the whitening matrix, whether a scaler object exists *)
  Record prepared : Type := mk_prep { pd_Xs : mat A; pd_N2 : mat A; pd_V : option (mat A); pd_p : nat; pd_loc : vec A; pd_sca : vec A; pd_K : option (mat A); pd_obj : bool }.
  (** For one column np.cov is 0-d and sqrtm raises ValueError. *)
  Definition sd_prepare (prm : sparams A) (X0 : mat A) : res prepared :=
    let n := length X0 in
    let p0 := ncols X0 in
    if (p0 =? 1)%nat then Err ValueError else
    let varmatx := npcov X0 in
    bind (se_isqrt env varmatx) (fun N2 =>                                         (* :274 *)
    bind (if (n <? p0)%nat && sp_compress prm then                                 (* :277-296 *)
            bind (se_svd env (transpose X0)) (fun '(V, sv, U) =>
            let Xc := map (fun r => map2 nmul r sv) (transpose U) in
            if existsb (fun v => v =?! n0) (mad Xc) then Ok (X0, ncols Xc, None) else Ok (Xc, ncols Xc, Some V))
          else Ok (X0, p0, None)) (fun '(X, p, dims) =>
    bind (if sp_center_data prm then                                               (* :300-315 *)
            if sd_is_mean (sp_center prm) then
              bind (mapM (trim_mean1 (sp_trim prm)) (cols X)) (fun m =>
              Ok (map (fun r => vsub r m) X, m, map (fun i => nsqrt (mget varmatx i i)) (seq 0 p0), false))
            else bind (sd_scaled (sp_center prm) SNone (sp_trim prm) X0) (fun '(m, v, Z) => Ok (Z, m, v, true))
          else Ok (X0, vzeros p, repeat n1 p, false)) (fun '(Xs1, m1, s1, o1) =>
    bind (if sp_scale_data prm then                                                (* :316-338 *)
            match sp_center prm with
            | CMean => bind (npmatmul Xs1 N2) (fun Z => Ok (Z, m1, s1, o1))
            | CMedian | CL1median => bind (sd_scaled (sp_center prm) SMad (sp_trim prm) X0) (fun '(m, v, Z) => Ok (Z, m, v, true))
            | _ => Err MyException
            end
          else Ok (Xs1, m1, s1, o1)) (fun '(Xs2, m2, s2, o2) =>
    bind (if sp_whiten prm then                                                    (* :340-346 *)
            bind (se_svd env (transpose Xs2)) (fun '(V, sv, _) =>
            let K := map (fun r => firstn p (map2 ndiv r sv)) V in
            bind (npmatmul Xs2 K) (fun Z => Ok (map (map (fun v => v *! nsqrt (nnat p))) Z, Some K)))
          else Ok (Xs2, None)) (fun '(Xs, K) =>
    Ok (mk_prep Xs N2 dims p m2 s2 K o2)))))).

  (** np.matmul(N2, P) if scale_data *)
  Definition n2_times (scale : bool) (N2 P : mat A) : res (mat A) := if scale then npmatmul N2 P else Ok P.

  (** :376-429 the methods without optimisation *)
  Definition sd_direct (prm : sparams A) (Xs : mat A) (ys : vec A) : option (res (mat A)) :=
    let h := sp_ncomp prm in let k := sp_slices prm in let ct := sp_cont prm in let c := sp_center_data prm in let s := sp_scale_data prm in
    match sp_meth prm with
    | MSir => Some (SIR (se_eigh env) Xs ys k h ct c s)
    | MSave => Some (SAVE (se_eigh env) Xs ys k h ct c s)
    | MDr => Some (DR (se_eigh env) Xs ys k h ct c s)
    | MPhd => Some (PHD (se_eigh env) Xs ys h c s)
    | MIht => Some (IHT (se_eigh env) Xs ys h c s)
    | _ => None
    end.

  (** :433-459 the starting value.  The positional arguments are shifted:
      center_data is taken for ytype (so that the response itself is used as
      label) and scale_data for center_data; scale_data has its default True. *)
  Definition start_value (prm : sparams A) (Xs : mat A) (ys : vec A) (N2 : mat A) : res (vec A) :=
    let h := sp_ncomp prm in let s := sp_scale_data prm in
    let value (B : mat A) := bind (se_orth env B) (fun b => bind (npmatmul Xs b) (fun Z => se_dcov env Z ys)) in
    bind (bind (SAVE (se_eigh env) Xs ys 3 h false s true) (n2_times s N2)) (fun save =>
    bind (bind (SIR (se_eigh env) Xs ys 6 h false s true) (n2_times s N2)) (fun sir =>
    bind (value save) (fun dc_save => bind (value sir) (fun dc_sir =>
    bind (bind (DR (se_eigh env) Xs ys 6 h false s true) (n2_times s N2)) (fun dr =>
    bind (value dr) (fun dc_dr =>
    Ok (flatF (if (dc_sir <=?! dc_save) && (dc_dr <=?! dc_save) then save
               else if (dc_save <=?! dc_sir) && (dc_dr <=?! dc_sir) then sir else dr)))))))).
  (** :461-484 *)
  Definition constraints (scale : bool) (Xs : mat A) (h : nat) : list (vec A -> res A) :=
    concat (map (fun i => map (fun j => fun b => if scale then const_zscale b Xs h i j else const_xscale b Xs h i j) (seq 0 h)) (seq 0 h)).
  Definition center_name (c : centre_opt A) : string := match c with CMean => "mean" | CMedian => "median" | CL1median => "l1median" | _ => "" end.

  (** :430-566 the methods with optimisation; [metric], [bias]: the keyword
      arguments dmetric and biascorr of fit.  ballcov_func does not exist
      (NameError, after optimizer_start has been replaced). *)
  Definition sd_optimise (st : sstate A) (Xs : mat A) (ys : vec A) (N2 : mat A) (metric : list A -> list A -> A) (bias : bool) : sstate A * res (mat A) :=
    let prm := ss_prm st in
    let h := sp_ncomp prm in
    match match ss_start st with Some b => Ok b | None => start_value prm Xs ys N2 end with
    | Err e => (st, Err e)
    | Ok start =>
        let cons := match ss_cons st with Some c => c | None => constraints (sp_scale_data prm) Xs h end in
        let args := match ss_args st with Some a => a | None => mk_sargs Xs ys h (sp_trim prm) (center_name (sp_center prm)) metric bias end in
        let d1 := solver_options VNone (ss_dict st) in
        let st1 := mk_ss prm (ss_X0 st) (Some start) (Some cons) (Some args) d1 in
        match bind (se_ipopt env (ss_dict st) (fun b => dcov_trim b args) cons start) (fun x => bind (unvec h x) (n2_times (sp_scale_data prm) N2)) with
        | Err e => (st1, Err e)
        | Ok B =>
            let again (f : vec A -> sargs A -> res A) :=
              (mk_ss prm (ss_X0 st) (Some (flatF B)) (Some cons) (Some args) (solver_options VNone d1),
               bind (se_ipopt env d1 (fun b => f b args) cons (flatF B)) (fun x => bind (unvec h x) (n2_times (sp_scale_data prm) N2))) in
            match sp_meth prm with
            | MBcov => (mk_ss prm (ss_X0 st) (Some (flatF B)) (Some cons) (Some args) d1, Err NameError)
            | MMdd => again (mdd_trim)
            | MUser f => again f
            | _ => (st1, Ok B)
            end
        end
    end.

  (** P (P'P)^-1 P' *)
  Definition projector (P : mat A) : res (mat A) :=
    bind (se_inv env (matmul (transpose P) P)) (fun G => Ok (matmul (matmul P G) (transpose P))).

  (** the end of fit (:387-389 etc., :567-585).  The last attribute fails
      (UnboundLocalError) if no scaler object was made. *)
  Definition sd_finish (prm : sparams A) (X0 : option (mat A)) (pd : prepared) (ys : vec A) (P : mat A) : res (smodel A) :=
    bind (projector P) (fun pm =>
    match X0 with
    | None => Err AttributeError
    | Some X =>
        bind (npmatmul X P) (fun T =>
        let Z := add_constant T in
        bind (se_ols env Z ys) (fun b =>
        bind (match pd_V pd with Some V => npmatmul (map (firstn (pd_p pd)) V) P | None => Ok P end) (fun P' =>
        if sp_return prm && negb (sd_is_mean (sp_center prm)) && negb (pd_obj pd) then Err UnboundLocalError
        else Ok (mk_sm P' T pm (pd_K pd) (pd_loc pd) (pd_sca pd) b (matvec Z b)))))
    end).

  (** :348-375 the response (more than one column is not modelled: ValueError) *)
  Definition sd_response (n : nat) (y : arr A) : res (vec A) :=
    let rows := match y with A1 v => map (fun a => [a]) v | A2 Y => Y end in
    if negb (length rows =? n)%nat then Err MyException
    else if negb (forallb (fun r => (length r =? 1)%nat) rows) then Err ValueError
    else Ok (col 0 rows).

  (** :208-585 fit (flag='two-block', is_distance_mat=False) *)
  Definition sd_fit (st : sstate A) (X : mat A) (y : arr A) (metric : list A -> list A -> A) (bias : bool) : sstate A * res (smodel A) :=
    let prm0 := ss_prm st in
    let X0 := if sp_copy prm0 then Some X else ss_X0 st in                          (* :249-253 *)
    let set (prm : sparams A) := mk_ss prm X0 (ss_start st) (ss_cons st) (ss_args st) (ss_dict st) in
    if (Nat.min (length X) (ncols X) <? sp_ncomp prm0)%nat then (set prm0, Err MyException) else   (* :259 *)
    let prm := sd_whitening prm0 in
    match bind (sd_prepare prm X) (fun pd => bind (sd_response (length X) y) (fun ys => Ok (pd, ys))) with
    | Err e => (set prm, Err e)
    | Ok (pd, ys) =>
        match sd_direct prm (pd_Xs pd) ys with
        | Some r => (set prm, bind r (fun P0 => bind (n2_times (sp_scale_data prm) (pd_N2 pd) P0) (sd_finish prm X0 pd ys)))
        | None =>
            let '(st', r) := sd_optimise (set prm) (pd_Xs pd) ys (pd_N2 pd) metric bias in
            (st', bind r (sd_finish prm X0 pd ys))
        end
    end.

  (** :587-617 transform, :619-649 predict *)
  Definition sd_transform (m : smodel A) (Xn : mat A) : res (mat A) :=
    if negb (ncols Xn =? length (sm_P m))%nat then Err ValueError else Ok (matmul Xn (sm_P m)).
  Definition sd_predict (m : smodel A) (Xn : mat A) : res (vec A) :=
    bind (sd_transform m Xn) (fun T =>
    let Z := add_constant T in
    if (ncols Z =? length (sm_ols m))%nat then Ok (matvec Z (sm_ols m)) else Err ValueError).

  (** ** :738-827 estimate_structural_dim *)
  (** np.argmin *)
  Fixpoint argmin_from (k : nat) (best : nat) (v : A) (l : vec A) : nat :=
    match l with [] => best | x :: l' => if x <?! v then argmin_from (S k) k x l' else argmin_from (S k) best v l' end.
  Definition argmin (l : vec A) : res nat := match l with [] => Err ValueError | x :: l' => Ok (argmin_from 1 0 x l') end.
  (** a fit by a fresh instance, of which proj_mat_ is used; the default options
      dictionary is passed on *)
  Definition fresh_proj (prm : sparams A) (d : dict) (X : mat A) (y : vec A) : dict * res (mat A) :=
    match sd_init prm None None None d with
    | Err e => (d, Err e)
    | Ok st => let '(st', r) := sd_fit st X (A1 y) euclid false in (ss_dict st', bind r (fun m => Ok (sm_proj m)))
    end.
  (** the parameters of the instances (:800-807): defaults apart from the arguments *)
  Definition est_prm (mt : meth A) (c : centre_opt A) (cd sd : bool) (slices k : nat) : sparams A :=
    mk_sp mt k n0 c cd sd false false slices true true true.
  (** [draw k b]: the indices np.random.randint returns; [sv]: the largest
      singular value (np.nanmax of svd's).  The response is not resampled. *)
  Fixpoint est_boot (prm : sparams A) (draw : nat -> list nat) (sv : mat A -> res A) (X : mat A) (y : vec A) (P : mat A) (bs : list nat) (d : dict) (diffs : vec A)
    : dict * res (vec A) :=
    match bs with
    | [] => (d, Ok diffs)
    | b :: bs' =>
        let '(d', r) := fresh_proj prm d (map (fun i => nth i X []) (draw b)) y in
        match bind r (fun Pb => sv (msub P Pb)) with
        | Err e => (d', Err e)
        | Ok v => est_boot prm draw sv X y P bs' d' (diffs ++ [v])
        end
    end.
  (** diff_b is not emptied between the dimensions (:796) *)
  Fixpoint est_loop (prm : nat -> sparams A) (draw : nat -> nat -> list nat) (sv : mat A -> res A) (B : nat) (X : mat A) (y : vec A) (ks : list nat) (d : dict) (diffs means : vec A)
    : dict * res (vec A) :=
    match ks with
    | [] => (d, Ok means)
    | k :: ks' =>
        let '(d1, r) := fresh_proj (prm k) d X y in
        match r with
        | Err e => (d1, Err e)
        | Ok P =>
            let '(d2, r2) := est_boot (prm k) (draw k) sv X y P (seq 0 B) d1 diffs in
            match r2 with
            | Err e => (d2, Err e)
            | Ok diffs' => est_loop prm draw sv B X y ks' d2 diffs' (means ++ [vmean diffs'])
            end
        end
    end.
  Definition estimate_structural_dim (mt : meth A) (c : centre_opt A) (cd sd : bool) (slices : nat) (X : mat A) (y : vec A) (B : nat)
      (draw : nat -> nat -> list nat) (sv : mat A -> res A) (d : dict) : dict * res (nat * vec A) :=
    let '(d', r) := est_loop (est_prm mt c cd sd slices) draw sv B X y (seq 1 (ncols X)) d [] [] in
    (d', bind r (fun means => bind (argmin means) (fun k => Ok (k + 1, means)%nat))).
End Sudire.
Arguments prepared : clear implicits.
