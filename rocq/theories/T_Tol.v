(** Property theorem C205: tolerances of one or more. *)
From Coq Require Import Reals QArith String List Arith ZArith Bool Lia Lra.
Import List. Import ListNotations.
From Verif Require Import Num Err Vec VecR OrdR L_Mat S_Stats M_Utils M_Preproc M_Robcent M_Msupport M_Rm M_Snipls S_Rm L_Scaling L_Scaling2 T_Scaling L_Snipls L_Rm L_Rm2 T_Rm M_Sprm S_Sprm L_Sprm T_Sprm L_Tol.
Open Scope R_scope.

Theorem C205_rm_refuted : forall (env : rm_env R) P n p X y, ~ invalid_rm P -> is_matrix n p X -> (2 <= n)%nat -> (1 <= p)%nat -> length y = n ->
  plain_centre (r_centre P) -> plain_scale (r_scale P) -> 1 <= r_tol P -> rm_run env P X y = ([], Err UnboundLocalError).
Proof. exact tol_rm_error. Qed.
Print Assumptions C205_rm_refuted.
(** for all options, in any arithmetic *)
Theorem C205_rm_never : forall (A : Type) (N : Num A) (env : rm_env A) P X y m, nltb (r_tol P) n1 = false -> rm_fit env P X y <> Ok m.
Proof. exact @tol_rm_never. Qed.
Print Assumptions C205_rm_never.
Theorem C205_sprm_never : forall (A : Type) (N : Num A) (env : sp_env A) P df X y m, nltb (s_tol P) n1 = false -> sprm_fit env P df X y <> Ok m.
Proof. exact @tol_sprm_never. Qed.
Print Assumptions C205_sprm_never.

Definition PT : rm_par R := mk_rm_par (Some MHuber) (1/2) 0 0 CMean SStd false 20 1 true.
Example C205_case : rm_run rmR PT X3 y3' = ([], Err UnboundLocalError).
Proof.
  apply (C205_rm_refuted rmR PT 3 2); auto; try lia; try (cbn; lra); try (left; reflexivity); [|apply X3_matrix].
  unfold invalid_rm, PT. cbn. intros H. repeat (destruct H as [H|H]); try discriminate; try lra; destruct H; try discriminate; lra.
Qed.
(** the same data, with a tolerance of 1/100 and of 1, in rational arithmetic *)
Definition ST (tol : Q) : sp_par Q := mk_sp_par (NInt 1) 0%Q true (Some MHuber) (95#100)%Q (97#100)%Q (99#100)%Q CMedian SMad 2 tol false false (ColBool false) true.
Example C205_sprm_case : (exists m, sprm_fit (spQ 1) (ST (1#100)) None XK yK = Ok m) /\ exists e, sprm_fit (spQ 1) (ST 1) None XK yK = Err e.
Proof. split; eexists; vm_compute; reflexivity. Qed.
