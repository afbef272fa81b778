(** Specifications for bias-corrected, trimmed and median (co-)moments (C125-C128). *)

From Coq Require Import String Reals List Arith ZArith Bool.
Import ListNotations.
From Verif Require Import S_Stats M_Utils M_Dicomo S_Dicomo.
Open Scope R_scope.
(** U-centring of pairwise values (Szekely and Rizzo 2014) *)
Definition u_centred (n : nat) (d : nat -> nat -> R) (i j : nat) : R :=
  if (i =? j)%nat then 0 else d i j - sum_below n (fun k => d i k) / (INR n - 2) - sum_below n (fun k => d k j) / (INR n - 2)
   + sum_below n (fun k => sum_below n (fun l => d k l)) / ((INR n - 1) * (INR n - 2)).
(** inner product of two U-centred families *)
Definition u_inner (n : nat) (d e : nat -> nat -> R) : R :=
  sum_below n (fun i => sum_below n (fun j => u_centred n d i j * u_centred n e i j)) / (INR n * (INR n - 3)).
(** unbiased estimator of the squared distance covariance; it may be negative *)
Definition ucov_sq (n : nat) (X Y : list (list R)) : R := u_inner n (rowdist X) (rowdist Y).
(** unbiased estimator of the squared martingale difference divergence *)
Definition umdd_sq (n : nat) (X : list (list R)) (y : list R) : R := u_inner n (rowdist X) (fun i j => (nth i y 0 - nth j y 0) ^ 2 / 2).
(** dcor.u_distance_covariance_sqr *)
Definition dcor_u_exact (dc : dcor_env R) : Prop := forall n p q X Y, is_matrix n p X -> is_matrix n q Y -> (4 <= n)%nat ->
  dc_u dc (A2 X) (A2 Y) = Err.Ok (ucov_sq n X Y).
(** number of values a trimming fraction t removes at each end of n *)
Definition cut (t : R) (n : nat) : nat := Z.to_nat (Int_part (t * INR n)).
(** m is the t-trimmed mean of l *)
Definition t_mean (t : R) (l : list R) (m : R) : Prop := is_trimmed_mean (cut t (length l)) l m.
(** all pairs *)
Definition all_pairs (n : nat) (f : nat -> nat -> R) : list R := concat (map (fun i => map (f i) (seq 0 n)) (seq 0 n)).
(** double centring with trimmed means *)
Definition is_trimmed_centring (t : R) (n : nat) (d out : nat -> nat -> R) : Prop := exists r c m,
  (forall i, (i < n)%nat -> t_mean t (map (d i) (seq 0 n)) (r i)) /\ (forall j, (j < n)%nat -> t_mean t (map (fun i => d i j) (seq 0 n)) (c j)) /\
  t_mean t (all_pairs n d) m /\ forall i j, (i < n)%nat -> (j < n)%nat -> out i j = d i j - r i - c j + m.
(** trimmed central co-moment *)
Definition is_trimmed_comoment (t : R) (a b : nat) (x y : list R) (v : R) : Prop := exists mx my,
  t_mean t x mx /\ t_mean t y my /\ t_mean t (map (fun p => (fst p - mx) ^ a * (snd p - my) ^ b) (combine x y)) v.
(** round to the nearest integer, ties to even *)
Definition rounded (x : R) (z : Z) : Prop := Rabs (x - IZR z) <= 1/2 /\ (Rabs (x - IZR z) = 1/2 -> Z.even z = true).
