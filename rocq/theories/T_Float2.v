(** C194: the case weights of rm and sprm in floating-point arithmetic.  The fit
    is evaluated in the arithmetic [Num_rnd rnd], which rounds the result of every
    operation; overflow and division by zero are not represented there. *)
From Coq Require Import Reals List Arith ZArith Bool Lia Lra.
Import ListNotations.
From Verif Require Import Num Err Vec S_Weights M_Msupport M_Robcent M_Float S_Float L_Float M_Rm M_Sprm S_Rm S_Sprm L_Sprm L_Float2 L_Float2Ex.
Open Scope R_scope.

Theorem C194_rm : forall rnd (env : rm_env R) (P : rm_par R) X y m, rounding rnd ->
  @rm_fit R (Num_rnd rnd) env P X y = Ok m -> X <> [] ->
  (forall f, r_fun P = Some f -> let c := re_normppf env (r_p1 P) in let b := re_normppf env (r_p2 P) in let r := re_normppf env (r_p3 P) in
     cutoffs_ok f c b r /\ rnd c = c /\ rnd b = b /\ rnd r = r) ->
  (forall f, r_fun P = Some f -> let q := fun t => if r_specific P then re_chi2ppf env t (length (hd [] X)) else re_normppf env t in
     let c := q (r_p1 P) in let b := q (r_p2 P) in let r := q (r_p3 P) in
     cutoffs_ok f c b r /\ rnd c = c /\ rnd b = b /\ rnd r = r) ->
  length (rm_cw m) = length X /\ length (rm_xcw m) = length X /\ length (rm_ycw m) = length X /\
  forall i, (i < length X)%nat ->
    0 <= nth i (rm_xcw m) 0 <= 1 /\ 0 <= nth i (rm_ycw m) 0 <= 1 /\
    (nth i (rm_cw m) 0 = 0 \/ rnd (1 / 1000000) <= nth i (rm_cw m) 0 <= 1) /\
    nth i (rm_cw m) 0 = rnd (nth i (rm_xcw m) 0 * nth i (rm_ycw m) 0).
Proof. exact rm_weights_l. Qed.
Print Assumptions C194_rm.
(** a fit in double arithmetic *)
Example C194_rm_case : rounding binary64 /\ (exists m, @rm_fit R (Num_rnd binary64) rmX64 PX64 [[1]; [3]] [3; 4] = Ok m) /\
  forall f, r_fun PX64 = Some f -> cutoffs_ok f 2 2 2 /\ binary64 2 = 2 /\ (forall q, re_normppf rmX64 q = 2) /\ forall q p, re_chi2ppf rmX64 q p = 2.
Proof.
  split; [exact binary64_rounding|]. destruct rm64 as (A & _ & B). split; [exact A|]. intros f Hf. destruct (B f Hf) as [(B1 & B2 & _) _].
  split; [exact B1|]. split; [exact B2|]. split; reflexivity.
Qed.

Theorem C194_sprm : forall rnd (env : sp_env R) (P : sp_par R) df X y m, rounding rnd ->
  @sprm_fit R (Num_rnd rnd) env P df X y = Ok m -> (2 <= length X)%nat -> svd_rows env ->
  (let c := re_normppf (se_rm env) (s_p1 P) in let b := re_normppf (se_rm env) (s_p2 P) in let r := re_normppf (se_rm env) (s_p3 P) in
     cutoffs_ok (sp_fun m) c b r /\ rnd c = c /\ rnd b = b /\ rnd r = r) ->
  (cutoffs_ok (sp_fun m) (sp_ctx m) (sp_cbx m) (sp_crx m) /\ rnd (sp_ctx m) = sp_ctx m /\ rnd (sp_cbx m) = sp_cbx m /\ rnd (sp_crx m) = sp_crx m) ->
  length (sp_cw m) = length X /\ length (sp_xcw m) = length X /\ length (sp_ycw m) = length X /\
  forall i, (i < length X)%nat ->
    0 <= nth i (sp_xcw m) 0 <= 1 /\ 0 <= nth i (sp_ycw m) 0 <= 1 /\
    (nth i (sp_cw m) 0 = 0 \/ rnd (1 / 1000000) <= nth i (sp_cw m) 0 <= 1) /\
    nth i (sp_cw m) 0 = rnd (nth i (sp_xcw m) 0 * nth i (sp_ycw m) 0).
Proof. exact sprm_weights_l. Qed.
Print Assumptions C194_sprm.
Example C194_sprm_case : exists m, @sprm_fit R (Num_rnd binary64) spX64 SX64 None [[1]; [3]] [3; 4] = Ok m /\ cut64 (sp_fun m) (sp_ctx m) (sp_cbx m) (sp_crx m).
Proof. exact sp64. Qed.
