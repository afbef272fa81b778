(** Specifications for (co-)moments and distance statistics, in plain real
    mathematics. *)

From Coq Require Import String Reals List Arith Bool.
Import ListNotations.
From Verif Require Import S_Stats.
Open Scope R_scope.

(** mean of (x_i - xbar)^a (y_i - ybar)^b *)
Definition comoment (a b : nat) (x y : list R) : R :=
  mean_of (map (fun p => (fst p - mean_of x) ^ a * (snd p - mean_of y) ^ b) (combine x y)).
(** k-th central moment *)
Definition cmoment (k : nat) (x : list R) : R := mean_of (map (fun v => (v - mean_of x) ^ k) x).
(** population covariance *)
Definition covariance_of (x y : list R) : R := comoment 1 1 x y.
(** all values equal *)
Definition constant (x : list R) : Prop := forall u v, In u x -> In v x -> u = v.
(** a x + b *)
Definition affine (a b : R) (x : list R) : list R := map (fun v => a * v + b) x.
(** x + z *)
Definition plus_l (x z : list R) : list R := map (fun p => fst p + snd p) (combine x z).

(** finite-sample factor of the variance *)
Definition bessel (biascorr : bool) (n : nat) : R := if biascorr then INR n / (INR n - 1) else 1.
(** skewness m3 / m2^(3/2) and kurtosis m4 / m2^2 *)
Definition skewness (x : list R) : R := cmoment 3 x / Rpower (cmoment 2 x) (3/2).
Definition kurtosis (x : list R) : R := cmoment 4 x / (cmoment 2 x) ^ 2.

(** double sums *)
Fixpoint sum_below (n : nat) (f : nat -> R) : R := match n with O => 0 | S m => sum_below m f + f m end.

(** distance between samples i and j *)
Definition rowdist (X : list (list R)) (i j : nat) : R := edist (nth i X []) (nth j X []).
(** double centring of a family of pairwise values *)
Definition dcentred (n : nat) (d : nat -> nat -> R) (i j : nat) : R :=
  d i j - sum_below n (fun k => d i k) / INR n - sum_below n (fun k => d k j) / INR n
  + sum_below n (fun k => sum_below n (fun l => d k l)) / (INR n * INR n).
(** squared sample distance covariance (V-statistic) *)
Definition dcov_sq (n : nat) (X Y : list (list R)) : R :=
  sum_below n (fun i => sum_below n (fun j => dcentred n (rowdist X) i j * dcentred n (rowdist Y) i j)) / (INR n * INR n).
(** every row moved by the same vector *)
Definition translate (c : list R) (X : list (list R)) : list (list R) := map (fun r => plus_l r c) X.
(** the rows are all equal *)
Definition constant_rows (X : list (list R)) : Prop := forall r r', In r X -> In r' X -> r = r'.

From Verif Require Import M_Utils M_Dicomo.
(** the array passed to fit holds the univariate sample [x]: 1-d or one column *)
Definition sample (xa : arr R) (x : list R) : Prop := xa = A1 x \/ xa = A2 (map (fun v => [v]) x).
(** no trimming is asked for *)
Definition no_trimming (kw : dkw R) : Prop := k_trim kw = None \/ k_trim kw = Some 0.
(** the biascorr argument *)
Definition biascorr (kw : dkw R) : bool := match k_bias kw with Some b => b | None => false end.
(** the estimator is configured with these parameters *)
Definition configured {A} (s : dstate A) (est mode center : string) : Prop := d_est s = est /\ d_mode s = mode /\ d_center s = center.
(** what fit returns *)
Definition fit_result {A} `{Num.Num A} (dc : dcor_env A) (s : dstate A) (x : arr A) (kw : dkw A) := snd (dicomo_fit dc s x kw).
(** the general algorithm is asked for (calcmode other than 'fast') *)
Definition naive_mode (kw : dkw R) : Prop := exists c, k_calc kw = Some c /\ c <> "fast"%string.
(** default algorithm *)
Definition fast_mode (kw : dkw R) : Prop := k_calc kw = None \/ k_calc kw = Some "fast"%string.
(** dcor.distance_covariance_sqr returns the squared distance covariance of two matrices with n rows *)
Definition dcor_exact (dc : dcor_env R) : Prop := forall n p q X Y, is_matrix n p X -> is_matrix n q Y -> (0 < n)%nat ->
  dc_v dc (A2 X) (A2 Y) = Err.Ok (dcov_sq n X Y).
(** sum over pairs of |x_i - x_j| (y_i - ybar)(y_j - ybar), divided by -n^2 *)
Definition mdd_sq (n : nat) (X : list (list R)) (y : list R) : R :=
  - (sum_below n (fun i => sum_below n (fun j => rowdist X i j * ((nth i y 0 - mean_of y) * (nth j y 0 - mean_of y)))) / (INR n * INR n)).
(** rows scaled by a *)
Definition scale_rows (a : R) (X : list (list R)) : list (list R) := map (map (Rmult a)) X.
(** column a of Y *)
Definition column_of (Y : list (list R)) (a : nat) : list R := map (fun r => nth a r 0) Y.
(** martingale difference divergence matrix: entry (a,b) *)
Definition mddm_entry (n : nat) (X Y : list (list R)) (a b : nat) : R :=
  - (sum_below n (fun i => sum_below n (fun j => rowdist X i j *
       ((nth a (nth i Y []) 0 - mean_of (column_of Y a)) * (nth b (nth j Y []) 0 - mean_of (column_of Y b))))) / (INR n * INR n)).
