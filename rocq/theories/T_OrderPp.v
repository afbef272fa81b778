(** Property theorems C152-C154: projection pursuit and the order of the cases,
    and when a grid fit completes. *)

From Coq Require Import String Reals QArith List Arith ZArith Bool Lia Lra Permutation.
Import List. Import ListNotations.
From Verif Require Import Num Err Vec VecR S_Stats S_Regress L_Stats M_Utils M_Preproc M_Robcent M_Dicomo S_Dicomo M_Ipopt M_Capi M_Ppdire S_Ppdire M_PpWorld S_Order S_OrderPp
  S_Sudire S_OrderSd T_Scaling T_Ppdire T_Dicomo T_Order L_Order L_OrderSf L_Grid3 L_OrderPp2 L_OrderPp3 L_PpTot L_Dicomo11.
Import List. Open Scope R_scope.

(* ------------------------------------------------------------------ *)
(** C152: ppdire does not depend on the order of the cases *)
Theorem C152_order : forall (env : pp_env R) prm d n p o X f,
  (forall most, ix_new (pp_idx prm) = Ok most -> index_order_free most) ->
  (pp_optim prm <> OGrid -> start_free env (pp_optim prm)) ->
  regression_order_free (pe_rm env) -> regression_order_free (pe_qr env) ->
  svd_shapes (pe_svd env) -> (pp_compress prm = true \/ pp_whiten prm = true -> economy_svd_order_free (pe_svd env)) ->
  pp_center prm = CMean \/ pp_center prm = CMedian ->
  case_order n o -> is_matrix n p X -> (2 <= n)%nat -> fkw_cases n f ->
  pp_fit env prm d (reorder o X) (reorder_fkw o f) =
    match pp_fit env prm d X f with
    | (prm', d', Ok m) => (prm', d', Ok (reorder_pp o m))
    | (prm', d', Err e) => (prm', d', Err e)
    end.
Proof.
  intros env prm d n p o X f H1 H2 H3 H4 H5 H6 H7 H8 H9 H10 H11. rewrite (ppdire_order_l env prm d n p o X f) by assumption.
  destruct (pp_fit env prm d X f) as [[prm' d'] [m|e]]; reflexivity.
Qed.
Print Assumptions C152_order.
(** the indices the package offers *)
Theorem C152_dicomo : forall dc s, dcor_order_free dc -> index_order_free (fun x kw => snd (dicomo_fit dc s x kw)).
Proof. exact dicomo_index_free. Qed.
Print Assumptions C152_dicomo.
Theorem C152_capi : forall St (pi : pindex R St) s, pindex_order_free pi ->
  index_order_free (fun x kw => match k_y kw with Some y => snd (capi_fit pi s x y kw) | None => Err TypeError end).
Proof. exact @capi_index_free. Qed.
Print Assumptions C152_capi.

Definition varR : arr R -> dkw R -> res R := fun x kw => snd (dicomo_fit dcN (dst "arithmetic" "var" "mean") x kw).
Definition ppG : pp_env R := mk_ppenv env0 trigR (fun M => Ok M) no_svd start_opt (fun _ _ => Err ValueError) (fun _ _ => Err ValueError).
Definition prmV (o : optim) : pparams R := mk_pp (mk_ppindex true (Some "var"%string) (Ok varR)) 2 0 1 o "OLS" CMean true true false false false.
Example C152_case : index_order_free varR /\ (pp_optim (prmV OGrid) <> OGrid -> start_free ppG (pp_optim (prmV OGrid))) /\ regression_order_free (pe_rm ppG) /\ svd_shapes (pe_svd ppG) /\
  case_order 3 ord3 /\ is_matrix 3 3 I3 /\ fkw_cases 3 (f0 (YKw (A1 [1; 2; 4]))) /\ reorder ord3 I3 <> I3.
Proof.
  split; [apply C152_dicomo, dcN_free|]. split; [intros H; exfalso; apply H; reflexivity|]. split; [intros n o u v _ _ _; reflexivity|]. split; [discriminate|].
  split; [apply ord3_order|]. split; [apply I3_matrix|]. split; [reflexivity|]. intros E. unfold reorder, ord3, I3 in E. cbn in E. injection E as E1. lra.
Qed.
Lemma ssq_free : index_order_free (@ssq R _).
Proof.
  intros n o x kw Ho Hx _ _. unfold ssq. f_equal. apply vsum_perm, Permutation_map. destruct x as [v|X]; cbn [areorder].
  - symmetry. apply (reorder_perm n); auto.
  - destruct Hx as [q Hq]. assert (HP : Permutation X (reorder o X)) by (apply (reorder_perm n); auto; apply Hq). revert HP. generalize (reorder o X). clear.
    intros Y HP. induction HP; cbn [concat]; auto; [apply Permutation_app_head; auto| |etransitivity; eauto]. rewrite !app_assoc. apply Permutation_app_tail, Permutation_app_comm.
Qed.
(** Without the grid the optimiser starts at the first case: one that stops
    there returns another weight when the cases are reordered. *)
Definition X2R : list (list R) := [[1; 0]; [0; 1]].
Theorem C152_start_refuted : exists (env : pp_env R) prm d o X f,
  (forall most, ix_new (pp_idx prm) = Ok most -> index_order_free most) /\ (forall opt d f x0, pe_opt env opt d f x0 = Ok x0) /\
  regression_order_free (pe_rm env) /\ regression_order_free (pe_qr env) /\ pp_compress prm = false /\ pp_whiten prm = false /\ pp_center prm = CMean /\
  case_order 2 o /\ is_matrix 2 2 X /\ fkw_cases 2 f /\
  exists m m', snd (pp_fit env prm d X f) = Ok m /\ snd (pp_fit env prm d (reorder o X) (reorder_fkw o f)) = Ok m' /\
    column 0 (pm_W m) = [1; 0] /\ column 0 (pm_W m') = [0; 1].
Proof.
  exists ppG, (mk_pp (mk_ppindex false None (Ok ssq)) 1 0 1 (OScipy "SLSQP") "OLS" CMean false false false false false), [], [1; 0]%nat, X2R, (f0 YNone).
  split. { intros most E. injection E as <-. exact ssq_free. }
  split; [reflexivity|]. split; [intros n o u v _ _ _; reflexivity|]. split; [intros n o u v _ _ _; reflexivity|]. do 3 (split; [reflexivity|]).
  split; [apply perm_swap|]. split; [split; [reflexivity|repeat constructor]|]. split; [exact I|].
  eexists. eexists. split; [reflexivity|]. split; [reflexivity|]. 
  cbn. replace (1 * 1 + (0 * 0 + 0)) with 1 by ring. replace (0 * 0 + (1 * 1 + 0)) with 1 by ring. rewrite sqrt_1. split; repeat f_equal; field.
Qed.
Print Assumptions C152_start_refuted.

(* ------------------------------------------------------------------ *)
(** C153: capi does not depend on the order of the cases *)
Theorem C153_order : forall St (pi : pindex R St) n o x y kw s, pindex_order_free pi -> case_order n o -> cases n x -> cases n y ->
  (forall d, k_metric kw = Some d -> symmetric_metric d) ->
  capi_fit pi s (areorder o x) (areorder o y) (kw_reorder o kw) = capi_fit pi s x y kw.
Proof. intros St pi n o x y kw s H1 H2 H3 H4 H5. exact (capi_order_l pi H1 n o x y kw H2 H3 H4 H5 s). Qed.
Print Assumptions C153_order.
(** with dicomo as the measure of each co-moment *)
Theorem C153_dicomo : forall dc est mode center n o x y kw s, dcor_order_free dc -> case_order n o -> cases n x -> cases n y ->
  (forall d, k_metric kw = Some d -> symmetric_metric d) ->
  capi_fit (dicomo_index dc est mode center) s (areorder o x) (areorder o y) (kw_reorder o kw) = capi_fit (dicomo_index dc est mode center) s x y kw.
Proof. intros dc est mode center n o x y kw s Hd. apply C153_order, dicomo_pindex_free, Hd. Qed.
Print Assumptions C153_dicomo.
Example C153_case : dcor_order_free dcN /\ case_order 3 ord3 /\ cases 3 (A1 [1; 2; 4]) /\ cases 3 (A1 [3; 0; 1]) /\ (forall d, k_metric (kwn (A1 [3; 0; 1])) = Some d -> symmetric_metric d).
Proof. split; [apply dcN_free|]. split; [apply ord3_order|]. split; [reflexivity|]. split; [reflexivity|]. discriminate. Qed.

(* ------------------------------------------------------------------ *)
(** C154: a grid fit with valid arguments completes.  The arithmetic is that of
    the reals with x / 0 = 0: in the code a score that vanishes gives NaN
    loadings, which is outside this statement; good_ndir excludes a division by
    zero in the second grid. *)
Theorem C154_completes : forall (env : pp_env R) prm d n p X f most ndir maxiter,
  ix_new (pp_idx prm) = Ok most -> (ix_dicomo (pp_idx prm) = false \/ ix_mode (pp_idx prm) <> None) ->
  (forall kw v, k_trim kw = Some (pp_trim prm) -> length v = n -> (exists u, most (A1 v) kw = Ok u) /\ (exists u, most (A2 (map (fun a => [a]) v)) kw = Ok u)) ->
  pe_trig env = trigR -> (forall k M, is_matrix k k M -> exists N, pe_pinv env M = Ok N /\ is_matrix k k N) ->
  pp_optim prm = OGrid -> opt_int "ndir" (grid_options d) = Ok ndir -> (0 < ndir)%Z -> good_ndir (Z.to_nat ndir) ->
  opt_int "maxiter" (grid_options d) = Ok maxiter -> (0 < maxiter)%Z ->
  pp_center prm = CMean \/ pp_center prm = CMedian -> 0 <= pp_trim prm < 1 / 2 -> direct_fit prm n p ->
  is_matrix n p X -> (2 <= n)%nat -> (3 <= p)%nat -> (match f_h f with Some h => h | None => pp_ncomp prm end <= Nat.min n p)%nat ->
  (f_y f = YNone \/ regression_answers env prm n (f_y f) /\ exists v, length v = n /\ has_response (f_y f) v) ->
  exists m, pp_fit env prm d X f = (with_h prm (f_h f), grid_options d, Ok m).
Proof.
  intros env prm d n p X f most ndir maxiter B1 B2 B3 B4 B5 B6 B7 B8 _ B9 B10 B11 B12 B13 B14 B15 B16 B17 B18.
  apply (fit_total_l env prm d n p X f most ndir maxiter); try assumption. unfold with_h. destruct (f_h f); exact B17.
Qed.
Print Assumptions C154_completes.
(** the variance answers every sample *)
Theorem C154_variance_answers : forall dc s kw v n t, configured s "arithmetic" "var" "mean" -> 0 <= t < 1 / 2 -> k_trim kw = Some t -> length v = n -> (0 < n)%nat ->
  (exists u, snd (dicomo_fit dc s (A1 v) kw) = Ok u) /\ (exists u, snd (dicomo_fit dc s (A2 (map (fun a => [a]) v)) kw) = Ok u).
Proof.
  intros dc s kw v n t HC Ht Hk Hl Hn. assert (Hv : v <> []) by (intros ->; cbn in Hl; lia).
  split; [destruct (fit_var_trim dc s (A1 v) v kw t HC (or_introl eq_refl) Hv Hk Ht) as (c & nt & E & _)|
          destruct (fit_var_trim dc s (A2 (map (fun a => [a]) v)) v kw t HC (or_intror eq_refl) Hv Hk Ht) as (c & nt & E & _)]; eexists; exact E.
Qed.
Print Assumptions C154_variance_answers.
Example C154_case : exists m, pp_fit ppG (prmV OGrid) default_options I3 (f0 (YKw (A1 [1; 2; 4]))) = (prmV OGrid, grid_options default_options, Ok m).
Proof.
  apply (C154_completes ppG (prmV OGrid) default_options 3 3 I3 (f0 (YKw (A1 [1; 2; 4]))) varR 1000 100000); try reflexivity; try lia; try (cbn; lra); auto.
  - right. discriminate.
  - intros kw v Hk Hl. apply (C154_variance_answers dcN (dst "arithmetic" "var" "mean") kw v 3%nat 0); first [exact Hk|exact Hl|lra|lia|repeat split].
  - intros k M HM. exists M. auto.
  - right. vm_compute. discriminate.
  - split; [reflexivity|left; reflexivity].
  - apply I3_matrix.
  - cbn. lia.
  - right. split; [left; reflexivity|]. exists [1; 2; 4]. split; [reflexivity|]. exists (A1 [1; 2; 4]). auto.
Qed.
