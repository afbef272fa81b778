(** Lemmas for C205. *)
From Coq Require Import Reals List Arith ZArith Bool Lia Lra.
Import ListNotations.
From Verif Require Import Num Err Vec VecR OrdR L_Mat S_Stats M_Utils M_Preproc M_Robcent M_Msupport M_Rm M_Snipls S_Rm L_Scaling L_Scaling2 L_Snipls L_Rm L_Rm2 M_Sprm S_Sprm L_Sprm L_Sprm2 L_Sprm3.
Open Scope R_scope.

Lemma tol_rm_never : forall {A} `{Num A} (env : rm_env A) P X y m, nltb (r_tol P) n1 = false -> rm_fit env P X y <> Ok m.
Proof.
  intros A HA env P X y m Ht E.
  apply rm_fit_inv in E as (f & st1 & Xs & st2 & Ys & mX & sX & my & sy & st & calls & _ & _ & _ & _ & _ & _ & _ & _ & _ & El & Ef).
  rewrite loop_none in El.
  - injection El as _ <-. apply rm_finish_inv in Ef as (b & Eb & _). discriminate.
  - cbn [start_state l_diff]. rewrite Ht. reflexivity.
Qed.
Lemma tol_rm_error : forall (env : rm_env R) P n p X y, ~ invalid_rm P -> is_matrix n p X -> (2 <= n)%nat -> (1 <= p)%nat -> length y = n ->
  plain_centre (r_centre P) -> plain_scale (r_scale P) -> 1 <= r_tol P -> rm_run env P X y = ([], Err UnboundLocalError).
Proof.
  intros env P n p X y Hv HX Hn Hp Hy Hc Hs Ht.
  destruct (rm_run_plain env P n p X y) as (f & Xs & y0 & mX & sX & my & sy & st2 & calls & r & Hf & WX & Hy0 & HsX & C2 & T2 & El & E); auto.
  rewrite loop_none in El. 2: { cbn [start_state l_diff]. rnum. apply andb_false_iff. left. apply Rltb_false. lra. }
  injection El as <- <-. unfold rm_finish in E. cbn [start_state l_b] in E. unfold rm_fit in E.
  assert (HL : fst (rm_run env P X y) = []).
  { clear E. unfold rm_run. destruct (rm_check P) as [g|]; [|reflexivity]. destruct (negb _); [reflexivity|]. destruct (_ && _); [reflexivity|].
    destruct (sc_fit_transform _ _ (A2 X)) as [sa [Xa|]]; [|reflexivity]. destruct (sc_fit_transform _ sa (A1 y)) as [sb [Yb|]]; [|reflexivity].
    destruct (a_col_loc sa), (a_col_sca sa), (a_col_loc sb), (a_col_sca sb); try reflexivity. cbv zeta. rewrite loop_none; [reflexivity|]. cbn [l_diff]. rnum. apply andb_false_iff. left. apply Rltb_false. lra. }
  destruct (rm_run env P X y) as [cs r]. cbn in HL, E. subst. reflexivity.
Qed.
Lemma tol_sprm_never : forall {A} `{Num A} (env : sp_env A) P df X y m, nltb (s_tol P) n1 = false -> sprm_fit env P df X y <> Ok m.
Proof.
  intros A HA env P df X y m Ht E. unfold sprm_fit in E. destruct (sprm_run env P df X y) as [P' [calls r]] eqn:ER. cbn in E. subst r.
  apply run_inv in ER as (f & k & c1 & c2 & mX & sX & Xs & my & sy & ys & X' & Xs' & sX' & ER). cbv zeta in ER.
  destruct ER as (_ & _ & _ & _ & _ & _ & EP & _ & _ & Eest). apply estimate_inv in Eest as (Us & rc & c & b & q & st & _ & _ & EL & EF).
  assert (HP : s_tol P' = s_tol P) by (rewrite EP; unfold tau_fix; destruct (s_scale _); auto; destruct (existsb _ _); auto).
  rewrite sp_loop_none in EL.
  - injection EL as _ <-. apply finish_inv in EF as (fit & EF & _). discriminate.
  - unfold sp_start_state. cbn [q_diff]. rewrite HP, Ht. reflexivity.
Qed.
