(** Specification vocabulary for sparse partial robust M-regression. *)

From Coq Require Import Reals String List Arith ZArith.
Import ListNotations.
From Verif Require Import Num Err M_Utils M_Preproc M_Robcent M_Rm S_Stats S_Rm M_Sprm.
Open Scope R_scope.

(** parameters and shapes that the documentation declares invalid; [n], [p] is
    the shape of X, [ny] the number of responses *)
Definition invalid_sp (P : sp_par R) (df : option (list string)) (n p ny : nat) : Prop :=
  ~ (exists z, s_ncomp P = NInt z /\ (1 <= z <= Z.of_nat n)%Z /\ (z <= Z.of_nat p)%Z) \/
  s_eta_float P = false \/ ~ (0 <= s_eta P < 1) \/ invalid_rm (sp_rm P) \/
  (s_columns P = ColBool true /\ df = None) \/ ny <> n.

(** number of entries of a vector of scales that do not count as zero *)
Definition nonzero_scales (s : list R) : nat :=
  length (filter (fun v => if Rlt_dec v (1 / 100000) then false else true) s).
(** the positions of these entries, in order *)
Definition nonzero_positions (s : list R) : list nat :=
  filter (fun j => if Rlt_dec (nth j s 0) (1 / 100000) then false else true) (seq 0 (length s)).

(** the rows of a matrix restricted to the columns [js] *)
Definition select (js : list nat) (X : list (list R)) : list (list R) := map (fun r => map (fun j => nth j r 0) js) X.

(** column names, where given, cover the columns of X *)
Definition names_cover (P : sp_par R) (df : option (list string)) (p : nat) : Prop :=
  (forall l, s_columns P = ColNames l -> (p <= length l)%nat) /\ (forall l, df = Some l -> (p <= length l)%nat).

(** external routines that do not raise the package's own exception *)
Definition quiet (env : sp_env R) : Prop :=
  (forall M, se_inv env M <> Err.Err Err.MyException) /\ (forall M, se_svd env M <> Err.Err Err.MyException).

(** what is asked of numpy's svd: U has one row per case and at least as many
    columns as there are singular values, and a non-zero matrix has a non-zero
    singular value *)
Definition svd_ok (env : sp_env R) : Prop :=
  forall n q Z U sv, is_matrix n q Z -> se_svd env Z = Ok (U, sv) ->
    (exists c, is_matrix n c U /\ (length sv <= c)%nat) /\ sv <> [] /\
    ((exists i j, (i < n)%nat /\ (j < q)%nat /\ cell Z i j <> 0) -> 0 < sum_of (map (fun v => v * v) sv)).

(** an error reported by numpy's linear algebra *)
Definition from_linalg (env : sp_env R) (e : exn) : Prop :=
  (exists M, se_inv env M = Err e) \/ (exists Z, se_svd env Z = Err e).

(** some variable that is not left out varies *)
Definition some_variation (env : sp_env R) (P : sp_par R) (n p : nat) (X : list (list R)) : Prop :=
  exists st s j a b, sc_fit (re_prep (se_rm env)) (new_scaler (s_centre P) (s_scale P) 0) (A2 X) = (st, Ok tt) /\ a_col_sca st = Some s /\
    (j < p)%nat /\ 1 / 100000 <= nth j s 0 /\ (a < n)%nat /\ (b < n)%nat /\ cell X a j <> cell X b j.

(** numpy's svd returns one row of U per case *)
Definition svd_rows {A} (env : sp_env A) : Prop := forall X U S, se_svd env X = Ok (U, S) -> length U = length X.

(** two fitted models with the same estimates (they may differ in the stored
    positions, locations and scales of the variables) *)
Definition same_estimates {A} (m m' : sp_model A) : Prop :=
  sp_coef m' = sp_coef m /\ sp_intercept m' = sp_intercept m /\ sp_coef_scaled m' = sp_coef_scaled m /\ sp_intercept_scaled m' = sp_intercept_scaled m /\
  sp_fitted m' = sp_fitted m /\ sp_resid m' = sp_resid m /\ sp_W m' = sp_W m /\ sp_P m' = sp_P m /\ sp_R m' = sp_R m /\ sp_T m' = sp_T m /\
  sp_xcw m' = sp_xcw m /\ sp_ycw m' = sp_ycw m /\ sp_cw m' = sp_cw m.
