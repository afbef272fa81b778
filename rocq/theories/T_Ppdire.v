(** Property theorems C64-C71, C104-C107, C109, C110: projection pursuit (ppdire). *)

From Coq Require Import String Reals QArith List Arith ZArith Bool Lia Lra.
Import List. Import ListNotations.
From Verif Require Import Num Err Vec VecR S_Stats S_Regress L_Stats M_Utils M_Preproc M_Robcent M_Dicomo M_Ipopt M_Ppdire S_Ppdire M_PpWorld
  T_Scaling T_Snipls L_Grid L_Grid2 L_Grid3 L_Pp3 L_Pp4 L_Pp5 L_Pp6 L_Pp7 L_PpWorld.
Import List. Open Scope R_scope.

(* ------------------------------------------------------------------ *)
(** Concrete cases: an optimiser that returns its starting value (the first row
    of the deflated data), a projection index equal to the sum of squares, two
    components of a 4 x 2 matrix (over the rationals, so that the fit can be
    evaluated). *)
Definition ssq {A} `{Num A} (x : arr A) (_ : dkw A) : res A :=
  Ok (vsum (map nsqr (match x with A1 v => v | A2 X => concat X end))).
Definition start_opt {A} (_ : optim) (_ : dict) (_ : vec A -> res A) (x0 : vec A) : res (vec A) := Ok x0.
Definition ppQ (invm : list (list Q) -> res (list (list Q))) (svd : list (list Q) -> res (list (list Q) * list Q * list (list Q))) : pp_env Q :=
  mk_ppenv envQ (mk_trig (fun x => x) (fun x => x) (fun x => x) (fun x => x)) invm svd start_opt (fun _ _ => Err ValueError) (fun _ _ => Err ValueError).
Definition no_svd {A} (_ : list (list A)) : res (list (list A) * list A * list (list A)) := Err LinAlgError.
Definition prmQ (h : nat) (cd : bool) : pparams Q :=
  mk_pp (mk_ppindex false None (Ok ssq)) h 0%Q 1%Q (OScipy "SLSQP") "OLS" CMean cd false false false false.
Definition f0 {A} (y : yarg A) : fkw A := mk_fkw y None false None None.
Definition X42 : list (list Q) := [[3; 4]; [-3; -4]; [25; 25]; [-25; -25]]%Q.
Definition qz (v : list Q) : list Q := map Qred v.
Definition dotQ (u v : list Q) : Q := Qred (dot u v).

(** A real case: one component, the direction (1,0), a response. *)
Definition penR (M : list (list R)) : res (list (list R)) := match M with [[a]] => Ok [[/ a]] | _ => Err LinAlgError end.
Lemma penR_ok : penrose penR.
Proof.
  intros k M N [HM HF] E. unfold penR in E. destruct M as [|[|a [|? ?]] [|? ?]]; try discriminate. injection E as <-.
  cbn in HM. subst k. split; [repeat constructor|]. intros i j Hi Hj. assert (i = 0%nat) by lia. assert (j = 0%nat) by lia. subst.
  unfold cell, sum_of. cbn. destruct (Req_EM_T a 0) as [->|Ha]; [ring|field; exact Ha].
Qed.
Definition ppR : pp_env R := mk_ppenv env0 trigR penR no_svd (fun _ _ _ _ => Ok [1; 0]) (fun _ _ => Err ValueError) (fun _ _ => Err ValueError).
Definition prmR (o : optim) : pparams R := mk_pp (mk_ppindex false None (Ok ssq)) 1 0 1 o "OLS" CMedian false false false false false.
Definition X32R : list (list R) := [[3; 4]; [1; 0]; [-4; 2]].
Lemma X32R_matrix : is_matrix 3 2 X32R.
Proof. split; [reflexivity|repeat constructor]. Qed.
Lemma fitR : exists m, pp_fit ppR (prmR (OScipy "SLSQP")) [] X32R (f0 (YKw (A1 [1; 2; 4]))) = (prmR (OScipy "SLSQP"), [], Ok m) /\ nonzero_cols (pm_T m) 1.
Proof.
  eexists. split; [reflexivity|]. intros i Hi. assert (i = 0%nat) by lia. subst i. cbn [pm_T].
  unfold column, sqlen, sum_of. cbn. replace (1 * 1 + (0 * 0 + 0)) with 1 by ring. rewrite sqrt_1. unfold Rdiv. rewrite Rinv_1. lra.
Qed.

(* ------------------------------------------------------------------ *)
(** C64: the two grids *)
Theorem C64_first : forall most n X g lo hi a b m, is_matrix n 2 X -> ga_alphamat g = AmTuple -> ga_range g = (lo, hi) -> lo < 0 -> 0 < hi ->
  gridplane trigR most X g = Ok (a, b, m) <->
  first_best (ga_ndir g) (fun k => (hi * cos (angle1 (ga_ndir g) k), hi * sin (angle1 (ga_ndir g) k)))
    (fun x y v => sample_value most (ga_kw g) (ga_square g) (combine2 X x y) v) a b m.
Proof. exact gridplane_spec. Qed.
Print Assumptions C64_first.
Theorem C64_second : forall most n X q g lo hi a b m, is_matrix n 2 X -> ga_alphamat g = AmArray -> ga_range g = (lo, hi) -> lo < 0 -> 0 < hi ->
  ga_stops g = stops trigR (lo, hi) ->
  gridplane_2 trigR most X q g = Ok (a, b, m) <->
  first_best (ga_ndir g) (fun k => (hi * cos (angle2 (ga_ndir g) k) / norm2 q hi (angle2 (ga_ndir g) k),
                                    hi * sin (angle2 (ga_ndir g) k) / norm2 q hi (angle2 (ga_ndir g) k)))
    (fun x y v => sample_value most (ga_kw g) (ga_square g) (combine2 X x y) v) a b m.
Proof. exact gridplane_2_spec. Qed.
Print Assumptions C64_second.
(** the direction returned has length hi; that of the second grid is such that
    a unit vector w with j-th entry q is replaced by a unit vector a w + b e_j *)
Theorem C64_unit : forall most n X g lo hi a b m, is_matrix n 2 X -> ga_alphamat g = AmTuple -> ga_range g = (lo, hi) -> lo < 0 -> 0 < hi ->
  gridplane trigR most X g = Ok (a, b, m) -> a * a + b * b = hi * hi.
Proof. intros most n X g lo hi a b m H1 H2 H3 H4 H5 E. apply (C64_first most n X g lo hi) in E; auto. exact (C64_unit1_l _ _ _ _ _ _ E). Qed.
Print Assumptions C64_unit.
Theorem C64_unit_second : forall most n X q g a b m, is_matrix n 2 X -> ga_alphamat g = AmArray -> ga_range g = (-1, 1) -> ga_stops g = stops trigR (-1, 1) ->
  good_ndir (ga_ndir g) -> -1 <= q <= 1 -> gridplane_2 trigR most X q g = Ok (a, b, m) -> a * a + b * b + 2 * (a * b) * q = 1.
Proof. intros most n X q g a b m H1 H2 H3 H4 H5 H6 E. apply (C64_second most n X q g (-1) 1) in E; auto; try lra. exact (C64_unit2_l _ _ _ _ _ _ H5 H6 E). Qed.
Print Assumptions C64_unit_second.
(** the hypotheses are met and the search returns *)
Example C64_case : forall ndir, (0 < ndir)%nat -> exists a b m,
  gridplane trigR ssq X32R (mk_gargs ndir (-1, 1) AmTuple true (0, 0, 0, 0) (mk_dkw None None None None None None None None None None)) = Ok (a, b, m).
Proof.
  intros ndir Hn. set (g := mk_gargs _ _ _ _ _ _).
  destruct (first_best_exists ndir (fun k => (1 * cos (angle1 ndir k), 1 * sin (angle1 ndir k))) (fun x y v => sample_value ssq (ga_kw g) (ga_square g) (combine2 X32R x y) v))
    as (a & b & m & Hf); auto.
  - intros k _. eexists. eexists. split; reflexivity.
  - intros a b v w (u & E1 & ->) (u2 & E2 & ->). rewrite E1 in E2. apply Ok_inj in E2 as ->. reflexivity.
  - exists a, b, m. apply (C64_first ssq 3 X32R g (-1) 1); auto; try lra. apply X32R_matrix.
Qed.

(* ------------------------------------------------------------------ *)
(** C104: the first grid comes within PI/(2 ndir) of every direction *)
Theorem C104_covering : forall ndir a b, (0 < ndir)%nat -> a * a + b * b = 1 ->
  exists k, (k < ndir)%nat /\ cos (PI / (2 * INR ndir)) <= Rabs (a * cos (angle1 ndir k) + b * sin (angle1 ndir k)).
Proof. exact covering_l. Qed.
Print Assumptions C104_covering.

(* ------------------------------------------------------------------ *)
(** C65: unit weights and matching projections *)
Theorem C65_first : forall most g g2 n p Z, grid_args g g2 -> is_matrix n p Z -> (0 < n)%nat -> (2 <= p)%nat ->
  forall z a, first_sweep trigR most g Z p = Ok (z, a) -> unit_projection Z p z a.
Proof. intros most g g2 n p Z HG HZ Hn Hp z a E. apply unit_state_proj. apply (first_sweep_inv most g g2 n p Z HG HZ Hn z a Hp E). Qed.
Print Assumptions C65_first.
Theorem C65_sweep : forall most g g2 n p Z, grid_args g g2 -> is_matrix n p Z -> (0 < n)%nat -> good_ndir (ga_ndir g) ->
  forall js z a z' a', Forall (fun j => (j < p)%nat) js -> unit_projection Z p z a ->
  sweep2 trigR most g2 Z js z a = Ok (z', a') -> unit_projection Z p z' a'.
Proof. intros most g g2 n p Z HG HZ Hn Hd js z a z' a' Hj Hu E. apply unit_state_proj. apply unit_state_proj in Hu. apply (sweep2_inv most g g2 n p Z HG HZ Hn js z a z' a' Hd Hj Hu E). Qed.
Print Assumptions C65_sweep.
Theorem C65_refine : forall most g g2 n p Z, grid_args g g2 -> is_matrix n p Z -> (0 < n)%nat -> good_ndir (ga_ndir g) ->
  forall k z a oo o z' a' o', unit_projection Z p z a -> refine trigR most k g2 Z z a oo o = Ok (z', a', o') -> unit_projection Z p z' a'.
Proof. intros most g g2 n p Z HG HZ Hn Hd k z a oo o z' a' o' Hu E. apply unit_state_proj. apply unit_state_proj in Hu. apply (refine_inv most g g2 n p Z HG HZ Hn k z a oo o z' a' o' Hd Hu E). Qed.
Print Assumptions C65_refine.
Theorem C65_search : forall most g g2 n p Z, grid_args g g2 -> is_matrix n p Z -> (0 < n)%nat -> (3 <= p)%nat -> good_ndir (ga_ndir g) ->
  forall maxiter w o, grid_search trigR most g g2 maxiter Z p = Ok (w, o) -> length w = p /\ sqlen w = 1.
Proof.
  intros most g g2 n p Z HG HZ Hn Hp Hd maxiter w o E. rewrite sqlen_dot.
  destruct (grid_search_inv most g g2 n p Z HG HZ Hn maxiter w o Hp Hd E) as (_ & H1 & H2 & _). auto.
Qed.
Print Assumptions C65_search.
(** For 4j+1 directions one of the second grid is -45 degrees; for the weight
    vector (1, 0, ..., 0) its normaliser is zero: the code divides by zero. *)
Theorem C65_degenerate_refuted : forall j, (0 < j)%nat -> exists k, (k < 4 * j + 1)%nat /\ norm2 1 1 (angle2 (4 * j + 1) k) = 0.
Proof. intros j Hj. exists j. split; [lia|exact (degenerate j Hj)]. Qed.
Print Assumptions C65_degenerate_refuted.
Definition gS (am : amat) : gargs R := mk_gargs 1000 (-1, 1) am false (stops trigR (-1, 1)) (mk_dkw None None None None None None None None None None).
Lemma gS_args : grid_args (gS AmTuple) (gS AmArray).
Proof. repeat split. Qed.
Lemma I3_matrix : is_matrix 3 3 I3.
Proof. split; [reflexivity|repeat constructor]. Qed.
Example C65_case : good_ndir 1000 /\ grid_search trigR spike (gS AmTuple) (gS AmArray) 100000 I3 3 = Ok ([0; 0; -1], 1).
Proof. split; [right; vm_compute; discriminate|]. apply spike_search; try reflexivity. { exact gS_args. } cbn [gS ga_ndir]. lia. Qed.

(* ------------------------------------------------------------------ *)
(** C105: the objective along the search *)
Theorem C105_first : forall most g g2 n p Z, grid_args g g2 -> is_matrix n p Z -> (0 < n)%nat -> (2 <= p)%nat ->
  forall z a, first_sweep trigR most g Z p = Ok (z, a) ->
  exists o, sample_value most (ga_kw g) (ga_square g) z o /\
    (exists o0, sample_value most (ga_kw g) (ga_square g) (column 0 Z) o0 /\ o0 <= o) /\
    (Nat.even (ga_ndir g) = true -> forall i, (i < p)%nat -> exists oi, sample_value most (ga_kw g) (ga_square g) (column i Z) oi /\ oi <= o).
Proof. intros most g g2 n p Z HG HZ Hn Hp z a E. exact (proj2 (first_sweep_inv most g g2 n p Z HG HZ Hn z a Hp E)). Qed.
Print Assumptions C105_first.
Theorem C105_odd : forall most g g2 n p Z, grid_args g g2 -> is_matrix n p Z -> (0 < n)%nat -> (3 <= p)%nat -> good_ndir (ga_ndir g) ->
  (3 <= ga_ndir g)%nat -> Nat.odd (ga_ndir g) = true -> forall maxiter w o, grid_search trigR most g g2 maxiter Z p = Ok (w, o) ->
  exists z1 w1 o1 o2, first_sweep trigR most g Z p = Ok (z1, w1) /\
    sample_value most (ga_kw g) (ga_square g) (map (fun r => inner r w1) Z) o1 /\
    sample_value most (ga_kw g) (ga_square g) (map (fun r => inner r w) Z) o2 /\ o1 <= o2.
Proof.
  intros most g g2 n p Z HG HZ Hn Hp Hd H3 Ho maxiter w o E.
  destruct (grid_search_inv most g g2 n p Z HG HZ Hn maxiter w o Hp Hd E) as (_ & _ & _ & z1 & w1 & o1 & E1 & _ & _ & HM).
  destruct (HM H3 Ho) as (oa & ob & Ha & Hb & Hl). exists z1, w1, oa, ob. split; [exact E1|].
  replace (map (fun r => inner r w1) Z) with (matvec Z w1) by (apply map_ext; intros r; symmetry; apply inner_dot).
  replace (map (fun r => inner r w) Z) with (matvec Z w) by (apply map_ext; intros r; symmetry; apply inner_dot). auto.
Qed.
Print Assumptions C105_odd.
(** For an even number of directions (the default is 1000) the refinement can
    lose the optimum the first sweep has found: the first sweep ends at weights
    of objective 2, the search returns weights of objective 1. *)
Theorem C105_even_refuted : exists (most : arr R -> dkw R -> res R) Z, shape_blind most /\ is_matrix 3 3 Z /\
  forall g g2 maxiter, grid_args g g2 -> ga_square g = false -> Nat.even (ga_ndir g) = true -> (2 <= ga_ndir g)%nat -> (0 < maxiter)%Z ->
  exists z1 w1 w, first_sweep trigR most g Z 3 = Ok (z1, w1) /\ sample_value most (ga_kw g) (ga_square g) (map (fun r => inner r w1) Z) 2 /\
    grid_search trigR most g g2 maxiter Z 3 = Ok (w, 1) /\ sample_value most (ga_kw g) (ga_square g) (map (fun r => inner r w) Z) 1.
Proof.
  exists spike, I3. split; [|split; [exact I3_matrix|]].
  - intros v kw. unfold spike. replace (flat (A2 (map (fun a => [a]) v))) with v; [reflexivity|]. cbn. induction v as [|x v IH]; [reflexivity|]. cbn. f_equal. exact IH.
  - intros g g2 maxiter HG Hs He H2 Hm. exists [1; 0; 0], [1; 0; 0], [0; 0; -1]. split; [exact (spike_first g g2 HG Hs H2)|]. split; [|split].
    + exists 2. rewrite Hs. split; [|reflexivity]. unfold spike. replace (flat _) with [1; 0; 0].
      * destruct (list_eq_dec Req_EM_T [1; 0; 0] [1; 0; 0]); [reflexivity|congruence].
      * unfold I3, inner, sum_of. cbn. repeat f_equal; ring.
    + exact (spike_search g g2 HG Hs He H2 maxiter Hm).
    + exists 1. rewrite Hs. split; [|reflexivity]. unfold spike. destruct (list_eq_dec Req_EM_T _ [1; 0; 0]) as [E|_]; [|reflexivity].
      exfalso. unfold flat, I3, inner, sum_of in E. cbn in E. injection E as E _. lra.
Qed.
Print Assumptions C105_even_refuted.

(* ------------------------------------------------------------------ *)
(** C66: orthogonal scores *)
Theorem C66_orthogonal : forall (env : pp_env R) prm d X f prm' d' m n p, is_matrix n p X -> pp_fit env prm d X f = (prm', d', Ok m) ->
  is_matrix n (pp_ncomp prm') (pm_T m) /\
  (nonzero_cols (pm_T m) (pp_ncomp prm') -> forall i j, (i < pp_ncomp prm')%nat -> (j < pp_ncomp prm')%nat -> i <> j ->
     orthogonal (column i (pm_T m)) (column j (pm_T m))).
Proof. exact C66_l. Qed.
Print Assumptions C66_orthogonal.
Example C66_case : exists m, snd (pp_fit (ppQ invQ no_svd) (prmQ 2 false) [] X42 (f0 YNone)) = Ok m /\
  let a := col 0 (pm_T m) in let b := col 1 (pm_T m) in dotQ a a <> 0%Q /\ dotQ b b <> 0%Q /\ dotQ a b = 0%Q.
Proof. eexists. split; [vm_compute; reflexivity|]. vm_compute. repeat match goal with |- _ /\ _ => split end; first [reflexivity | discriminate]. Qed.

(* ------------------------------------------------------------------ *)
(** C67: transform of the training data.  With center_data=False and more than
    one column the result has one copy of the scores per row. *)
Theorem C67_training : forall (env : pp_env R) prm d X f prm' d' m n p, is_matrix n p X -> (2 <= n)%nat -> direct_fit prm n p -> penrose (pe_pinv env) ->
  pp_fit env prm d X f = (prm', d', Ok m) -> (0 < pp_ncomp prm')%nat -> nonzero_cols (pm_T m) (pp_ncomp prm') ->
  (pp_center_data prm = true \/ p = 1%nat -> pp_transform m X = Ok (T2 (pm_T m))) /\
  (pp_center_data prm = false -> (2 <= p)%nat -> pp_transform m X = Ok (T3 (repeat (pm_T m) n))).
Proof. exact C67_l. Qed.
Print Assumptions C67_training.
Theorem C67_uncentred_refuted : forall (env : pp_env R) prm d X f prm' d' m n p, is_matrix n p X -> direct_fit prm n p ->
  pp_fit env prm d X f = (prm', d', Ok m) -> (0 < pp_ncomp prm')%nat -> pp_center_data prm = false -> (2 <= p)%nat ->
  forall k Xn, is_matrix k p Xn -> (1 <= k)%nat -> pp_transform m Xn = Ok (T3 (repeat (matmul Xn (pm_R m)) k)).
Proof. exact C67_new_l. Qed.
Print Assumptions C67_uncentred_refuted.
Example C67_case : exists m, snd (pp_fit (ppQ invQ no_svd) (prmQ 2 true) [] X42 (f0 YNone)) = Ok m /\
  (exists Z, pp_transform m X42 = Ok (T2 Z) /\ map qz Z = map qz (pm_T m)) /\ dotQ (col 1 (pm_T m)) (col 1 (pm_T m)) <> 0%Q.
Proof. eexists. split; [vm_compute; reflexivity|]. split; [eexists; split; vm_compute; reflexivity|vm_compute; discriminate]. Qed.
Example C67_uncentred_case : exists m, pp_fit ppR (prmR (OScipy "SLSQP")) [] X32R (f0 (YKw (A1 [1; 2; 4]))) = (prmR (OScipy "SLSQP"), [], Ok m) /\
  direct_fit (prmR (OScipy "SLSQP")) 3 2 /\ penrose (pe_pinv ppR) /\ nonzero_cols (pm_T m) 1.
Proof. destruct fitR as (m & E & H). exists m. split; [exact E|]. split; [split; [reflexivity|left; reflexivity]|]. split; [exact penR_ok|exact H]. Qed.

(* ------------------------------------------------------------------ *)
(** C68: predictions, fitted values and residuals *)
Theorem C68_predict : forall (env : pp_env R) prm d X f prm' d' m n p v, is_matrix n p X -> direct_fit prm n p -> has_response (f_y f) v ->
  pp_fit env prm d X f = (prm', d', Ok m) -> (0 < pp_ncomp prm')%nat ->
  exists ym b a r, pm_y m = Some ym /\ length b = p /\ length v = n /\ length (ym_fitted ym) = n /\ ym_resid ym = A1 r /\ length r = n /\
    (forall i, (i < n)%nat -> nth i (ym_fitted ym) 0 + nth i r 0 = nth i v 0) /\
    pp_predict m X = Ok (ym_fitted ym) /\
    (forall Xn, pp_predict m Xn = if (ncols Xn =? p)%nat then Ok (map (fun x => inner x b + a) Xn) else Err ValueError) /\
    (pp_center prm = CMean -> pp_trim prm = 0 -> sum_of r = 0) /\
    (pp_center prm <> CMean -> is_median r 0).
Proof. exact C68_l. Qed.
Print Assumptions C68_predict.
Theorem C68_no_response : forall (env : pp_env R) prm d X f prm' d' m Xn, f_y f = YNone -> pp_fit env prm d X f = (prm', d', Ok m) -> pp_predict m Xn = Err AttributeError.
Proof. exact C68_no_y_l. Qed.
Print Assumptions C68_no_response.
Example C68_case : exists m, pp_fit ppR (prmR (OScipy "SLSQP")) [] X32R (f0 (YKw (A1 [1; 2; 4]))) = (prmR (OScipy "SLSQP"), [], Ok m) /\
  has_response (f_y (f0 (YKw (A1 [1; 2; 4])))) [1; 2; 4].
Proof. destruct fitR as (m & E & H). exists m. split; [exact E|]. exists (A1 [1; 2; 4]). split; [right|left]; reflexivity. Qed.

(* ------------------------------------------------------------------ *)
(** C106: with OLS inner regression on centred data the residuals are
    orthogonal to the scores and the fitted values are the mean plus the scores'
    contributions *)
Theorem C106_residuals : forall (env : pp_env R) prm d X f prm' d' m n p v, is_matrix n p X -> (2 <= n)%nat -> direct_fit prm n p -> has_response (f_y f) v -> penrose (pe_pinv env) ->
  pp_center_data prm = true -> pp_center prm = CMean -> pp_trim prm = 0 -> pp_regopt prm = "OLS"%string ->
  pp_fit env prm d X f = (prm', d', Ok m) -> (0 < pp_ncomp prm')%nat -> nonzero_cols (pm_T m) (pp_ncomp prm') ->
  (forall j, (j < p)%nat -> nth j (pm_sca m) 0 <> 0) -> (forall ym, pm_y m = Some ym -> ym_sca ym <> 0) ->
  exists ym r, pm_y m = Some ym /\ ym_resid ym = A1 r /\ sum_of r = 0 /\ (forall k, (k < pp_ncomp prm')%nat -> orthogonal r (column k (pm_T m))) /\
    forall i, (i < n)%nat -> nth i (ym_fitted ym) 0 = mean_of v + ym_sca ym * sum_of (map (fun k => nth k (ym_C ym) 0 * cell (pm_T m) i k) (seq 0 (pp_ncomp prm'))).
Proof. exact C106_l. Qed.
Print Assumptions C106_residuals.
Example C106_case : exists m ym r, snd (pp_fit (ppQ invQ no_svd) (prmQ 1 true) [] X42 (f0 (YPos (A1 [1; 2; 6; 3]%Q)))) = Ok m /\ pm_y m = Some ym /\
  ym_resid ym = A1 r /\ Qred (vsum r) = 0%Q /\ dotQ r (col 0 (pm_T m)) = 0%Q /\ dotQ r r <> 0%Q /\ qz (pm_sca m) = [1; 1]%Q.
Proof. do 3 eexists. split; [vm_compute; reflexivity|]. split; [vm_compute; reflexivity|]. split; [vm_compute; reflexivity|]. vm_compute. repeat match goal with |- _ /\ _ => split end; first [reflexivity | discriminate]. Qed.

(* ------------------------------------------------------------------ *)
(** C69: the grid optimiser does not work for one or two columns *)
Theorem C69_two_columns_refuted : forall (env : pp_env R) prm d X f prm' d' m n p, is_matrix n p X -> (0 < n)%nat -> (p <= 2)%nat -> pp_optim prm = OGrid ->
  (pp_whiten prm = true \/ pp_compress prm = false \/ (p <= n)%nat) -> pp_fit env prm d X f <> (prm', d', Ok m).
Proof. exact C69_l. Qed.
Print Assumptions C69_two_columns_refuted.
Theorem C69_error : forall (env : pp_env R) prm d X f n p most ndir maxiter, is_matrix n p X -> (0 < n)%nat -> (p <= 2)%nat -> pp_optim prm = OGrid ->
  pp_whiten prm = false -> (pp_compress prm = false \/ (p <= n)%nat) -> pp_center_data prm = false -> pp_scale_data prm = false -> f_y f = YNone ->
  ix_dicomo (pp_idx prm) = false -> ix_new (pp_idx prm) = Ok most ->
  (match f_h f with Some h => h | None => pp_ncomp prm end <= Nat.min n p)%nat ->
  opt_int "ndir" (grid_options d) = Ok ndir -> (0 <= ndir)%Z -> opt_int "maxiter" (grid_options d) = Ok maxiter ->
  snd (pp_fit env prm d X f) = Err UnboundLocalError.
Proof. exact C69_error_l. Qed.
Print Assumptions C69_error.
Example C69_case : snd (pp_fit ppR (prmR OGrid) default_options X32R (f0 YNone)) = Err UnboundLocalError.
Proof. apply (C69_error ppR (prmR OGrid) default_options X32R (f0 YNone) 3 2 ssq 1000 100000); try reflexivity; try (cbn; lia); auto. apply X32R_matrix. Qed.
(** a grid fit of three columns does return *)
Definition prmG : pparams R := mk_pp (mk_ppindex false None (Ok spike)) 1 0 1 OGrid "OLS" CMedian false false false false false.
Lemma one_grid_component : forall (env : pp_env R) prm d X n p most ndir maxiter w o, is_matrix n p X -> (3 <= p)%nat -> (0 < n)%nat -> pp_optim prm = OGrid -> pp_ncomp prm = 1%nat ->
  pp_whiten prm = false -> pp_compress prm = false -> pp_center_data prm = false -> pp_scale_data prm = false -> ix_dicomo (pp_idx prm) = false -> ix_new (pp_idx prm) = Ok most ->
  opt_int "ndir" (grid_options d) = Ok ndir -> (0 <= ndir)%Z -> opt_int "maxiter" (grid_options d) = Ok maxiter ->
  pe_pinv env = penR ->
  grid_search (pe_trig env) most (plane_args env prm (index_kw prm false None) (Z.to_nat ndir) AmTuple) (plane_args env prm (index_kw prm false None) (Z.to_nat ndir) AmArray) maxiter X p = Ok (w, o) ->
  length w = p ->
  exists m, pp_fit env prm d X (f0 YNone) = (prm, grid_options d, Ok m) /\ pm_W m = of_cols p [w].
Proof.
  intros env prm d X n p most ndir maxiter w o HX Hp Hn Ho Hh Hw Hc Hcd Hsd Hd Hm E1 Hnd E2 Hpi EG Hlw.
  unfold pp_fit, with_whitening, scale_name. cbn [f0 with_h f_h f_y f_bias]. rewrite Hd, Hm, Hh, Hw, Hc, Hcd, Hsd, Ho. cbn [andb].
  rewrite (L_Mat.wf_ncols n p) by auto. rewrite (L_Mat.wf_length n p) by auto. rewrite andb_false_r.
  destruct (Nat.ltb_spec (Nat.min n p) 1); [lia|]. rewrite E1. cbn [bind]. destruct (Z.ltb_spec ndir 0); [lia|]. rewrite E2. cbn [bind].
  destruct (Nat.leb_spec p 2); [lia|]. rewrite ?Hw, ?Hcd. cbn [pp_loop]. unfold direction. rewrite Ho, E1, E2. cbn [bind]. rewrite EG. cbn [bind].
  unfold component, npdot. rewrite (L_Mat.wf_ncols n p) by auto. rewrite Hlw, Nat.eqb_refl. cbn [bind].
  assert (El : length (tmatvec X (matvec X w)) = p) by (unfold tmatvec, cols; rewrite !map_length, seq_length; apply (L_Mat.wf_ncols n p); auto).
  rewrite (L_Lin.matvec_length X w), (L_Mat.wf_length n p) by auto. rewrite map_length, El, ?Hlw, !Nat.eqb_refl. cbn [andb negb bind].
  unfold rotations. rewrite Hpi. cbn [app map g_w g_p].
  match goal with |- context [penR ?M] => assert (HM : exists a, M = [[a]]) end.
  { unfold matmul, transpose. destruct p as [|p']; [lia|]. destruct w as [|w0 w']; [discriminate|]. eexists. cbn. reflexivity. }
  destruct HM as [a ->]. cbn [penR bind]. eexists. split; reflexivity.
Qed.
Example C69_three_columns : exists m, pp_fit ppR prmG default_options I3 (f0 YNone) = (prmG, grid_options default_options, Ok m) /\ pm_W m = of_cols 3 [[0; 0; -1]] /\
  (exists ndir, opt_int "ndir" (grid_options default_options) = Ok ndir /\ good_ndir (Z.to_nat ndir)).
Proof.
  destruct (one_grid_component ppR prmG default_options I3 3 3 spike 1000 100000 [0; 0; -1] 1) as (m & E & HW); try reflexivity; try lia; auto.
  - apply I3_matrix.
  - apply spike_search; try reflexivity. { repeat split. } cbn [plane_args ga_ndir]. lia.
  - exists m. split; [exact E|]. split; [exact HW|]. exists 1000%Z. split; [reflexivity|right; vm_compute; discriminate].
Qed.

(* ------------------------------------------------------------------ *)
(** C70: whitening *)
Theorem C70_whitening_refuted : forall (env : pp_env R) prm d X f prm' d' m n p, is_matrix n p X -> (2 <= p)%nat -> pp_whiten prm = true -> economy_shapes (pe_svd env) ->
  pp_fit env prm d X f = (prm', d', Ok m) -> pp_ncomp prm' = 0%nat.
Proof. exact C70_l. Qed.
Print Assumptions C70_whitening_refuted.
(** a whitening fit reaches that point: columns (1,1,-1,-1), (1,-1,1,-1) *)
Example C70_case :
  let X := [[1; 1]; [1; -1]; [-1; 1]; [-1; -1]]%Q in
  let prm := mk_pp (mk_ppindex false None (Ok ssq)) 1 0%Q 1%Q (OScipy "SLSQP") "OLS" CMean true false true false false in
  let svd := fun _ : list (list Q) => Ok ([[1; 0]; [0; 1]], [2; 2], [[1/2; 1/2; -(1/2); -(1/2)]; [1/2; -(1/2); 1/2; -(1/2)]])%Q in
  snd (pp_fit (ppQ invQ svd) prm [] X (f0 YNone)) = Err ValueError.
Proof. vm_compute. reflexivity. Qed.

(* ------------------------------------------------------------------ *)
(** C107: compression (fewer rows than columns) *)
Theorem C107_compression_refuted : forall (env : pp_env R) prm d X f prm' d' m n p v, is_matrix n p X -> (2 <= n)%nat -> (n < p)%nat -> pp_whiten prm = false -> pp_compress prm = true ->
  pp_center prm = CMean -> pp_trim prm = 0 -> economy_shapes (pe_svd env) -> has_response (f_y f) v -> pp_fit env prm d X f = (prm', d', Ok m) -> (0 < pp_ncomp prm')%nat ->
  exists ym, pm_y m = Some ym /\ is_matrix p (pp_ncomp prm') (ym_coef ym) /\
    ym_fitted ym = repeat (mean_of v) n /\ ym_resid ym = A2 (map (fun a => repeat (a - mean_of v) n) v) /\
    pp_predict m X = Ok (repeat (mean_of v) n) /\
    (forall k Xn, is_matrix k p Xn -> (2 <= k)%nat -> k <> n -> pp_predict m Xn = Err ValueError).
Proof. exact C107_l. Qed.
Print Assumptions C107_compression_refuted.
Example C107_case :
  let X := [[3; 0; 0]; [0; 4; 0]]%Q in
  let prm := mk_pp (mk_ppindex false None (Ok ssq)) 1 0%Q 1%Q (OScipy "SLSQP") "OLS" CMean true false false false true in
  let svd := fun _ : list (list Q) => Ok ([[1; 0]; [0; 1]; [0; 0]], [3; 4], [[1; 0]; [0; 1]])%Q in
  exists m ym, snd (pp_fit (ppQ invQ svd) prm [] X (f0 (YPos (A1 [1; 5]%Q)))) = Ok m /\ pm_y m = Some ym /\ qz (ym_fitted ym) = [3; 3]%Q /\
    pp_predict m [[1; 2; 3]; [4; 5; 6]; [7; 8; 9]]%Q = Err ValueError.
Proof. do 2 eexists. split; [vm_compute; reflexivity|]. split; [vm_compute; reflexivity|]. split; vm_compute; reflexivity. Qed.

(* ------------------------------------------------------------------ *)
(** C109: unit weight vectors *)
Theorem C109_unit_weights : forall (env : pp_env R) prm d X f prm' d' m n p, is_matrix n p X -> direct_fit prm n p -> pe_trig env = trigR ->
  pp_fit env prm d X f = (prm', d', Ok m) -> (0 < pp_ncomp prm')%nat ->
  (pp_optim prm = OGrid -> exists ndir, opt_int "ndir" (grid_options d) = Ok ndir /\ good_ndir (Z.to_nat ndir)) ->
  is_matrix p (pp_ncomp prm') (pm_W m) /\
  forall i, (i < pp_ncomp prm')%nat -> sqlen (column i (pm_T m)) <> 0 -> sqlen (column i (pm_W m)) = 1.
Proof. exact C109_l. Qed.
Print Assumptions C109_unit_weights.
Example C109_case : exists m, pp_fit ppR (prmR (OScipy "SLSQP")) [] X32R (f0 (YKw (A1 [1; 2; 4]))) = (prmR (OScipy "SLSQP"), [], Ok m) /\
  direct_fit (prmR (OScipy "SLSQP")) 3 2 /\ pe_trig ppR = trigR /\ nonzero_cols (pm_T m) 1.
Proof. destruct fitR as (m & E & H). exists m. split; [exact E|]. split; [split; [reflexivity|left; reflexivity]|]. split; [reflexivity|exact H]. Qed.

(* ------------------------------------------------------------------ *)
(** C110: Maxobjf_ and crit_values_ are the index of the scores *)
Theorem C110_reported : forall (env : pp_env R) prm d X f prm' d' m n p, is_matrix n p X -> direct_fit prm n p ->
  pp_fit env prm d X f = (prm', d', Ok m) -> (0 < pp_ncomp prm')%nat ->
  exists most ys, ix_new (pp_idx prm) = Ok most /\
    (f_y f = YNone -> ys = None) /\
    (forall v, has_response (f_y f) v -> exists ym, pm_y m = Some ym /\
       ys = Some (A2 (map (fun a => [(a - ym_loc ym) / (if Req_EM_T (ym_sca ym) 0 then 1 else ym_sca ym)]) v))) /\
    forall i, (i < pp_ncomp prm')%nat ->
      let kw := mk_dkw ys (Some (pp_trim prm)) (Some (f_bias f)) (Some (pp_alpha prm)) None None None None None (Some euclid) in
      let score := A2 (map (fun a => [a]) (column i (pm_T m))) in
      (pp_optim prm <> OGrid -> most score kw = Ok (nth i (pm_max m) 0)) /\
      (f_y f <> YNone -> exists u, most score kw = Ok u /\ nth i (pm_crit m) 0 = if pp_square prm then u * u else u) /\
      (pp_optim prm = OGrid -> pe_trig env = trigR -> (exists ndir, opt_int "ndir" (grid_options d) = Ok ndir /\ good_ndir (Z.to_nat ndir)) ->
         (exists u, most score kw = Ok u /\ nth i (pm_max m) 0 = if pp_square prm then u * u else u) \/ nth i (pm_max m) 0 = -1000).
Proof. exact C110_l. Qed.
Print Assumptions C110_reported.
Example C110_case : exists m ym, snd (pp_fit (ppQ invQ no_svd) (prmQ 2 true) [] X42 (f0 (YPos (A1 [1; 2; 6; 3]%Q)))) = Ok m /\ pm_y m = Some ym /\
  qz (pm_max m) = [2500; 1]%Q /\ qz (pm_crit m) = [2500; 1]%Q.
Proof. do 2 eexists. split; [vm_compute; reflexivity|]. split; [vm_compute; reflexivity|]. split; vm_compute; reflexivity. Qed.

(* ------------------------------------------------------------------ *)
(** C71: several instances in one process.  [hist] is any history since the
    start of the process. *)
Theorem C71_own_options : forall (env : pp_env R) hist ops j,
  let w := wrun env world0 hist in
  (exists prm a, nth_error (w_inst w) j = Some (prm, a) /\ a <> 0%nat) -> (forall X f, ~ In (WFit j X f) ops) ->
  params_of (wrun env w ops) j = params_of w j.
Proof. intros env hist ops j w Ho Hf. exact (C71_isolated_l env ops w j (run_tidy env hist world0 tidy0) Ho Hf). Qed.
Print Assumptions C71_own_options.
(** a grid fit of a default instance changes the options of every other one *)
Theorem C71_grid_refuted : forall (env : pp_env R) hist i j X f q prm prm2,
  let w := wrun env world0 hist in
  nth_error (w_inst w) i = Some (prm, 0%nat) -> pp_optim prm = OGrid -> i <> j -> nth_error (w_inst w) j = Some (prm2, 0%nat) ->
  snd (wstep env w (WFit i X f)) = Some (Ok q) ->
  params_of (fst (wstep env w (WFit i X f))) j = Some (prm2, grid_options (nth 0 (w_heap w) [])).
Proof. intros env hist i j X f q prm prm2 w. exact (C71_grid_l env w i j X f q prm prm2 (run_tidy env hist world0 tidy0)). Qed.
Print Assumptions C71_grid_refuted.
(** after one IPOPT fit of a default instance no default instance can ever be
    fitted with the grid optimiser or scipy *)
Theorem C71_ipopt_refuted : forall (env : pp_env R) hist i X f q prm0,
  let w := wrun env world0 hist in
  nth_error (w_inst w) i = Some (prm0, 0%nat) -> pp_optim prm0 = OIpopt -> (0 < match f_h f with Some h => h | None => pp_ncomp prm0 end)%nat ->
  snd (wstep env w (WFit i X f)) = Some (Ok q) ->
  forall ops j X' f' prm, let w' := wrun env (fst (wstep env w (WFit i X f))) ops in nth_error (w_inst w') j = Some (prm, 0%nat) ->
    (pp_optim prm = OGrid -> forall m, snd (wstep env w' (WFit j X' f')) <> Some (Ok m)) /\
    (forall s m, pp_optim prm = OScipy s -> (0 < match f_h f' with Some h => h | None => pp_ncomp prm end)%nat -> snd (wstep env w' (WFit j X' f')) <> Some (Ok m)).
Proof.
  intros env hist i X f q prm0 w Hi Ho Hh Hq ops j X' f' prm w' Hj.
  apply (C71_poison_l env ops w i X f q (run_tidy env hist world0 tidy0)) with (a := 0%nat); auto.
  - exists prm0; exact Hi.
  - exists prm0; auto.
  - intros prm1 d. cbn [wstep]. rewrite Hi. destruct (pp_fit env prm0 (nth 0 (w_heap w) []) X f) as [[p1 d1] r1] eqn:E. cbn [fst].
    unfold params_of. cbn [w_inst w_heap]. rewrite nth_error_put, Nat.eqb_refl, Hi. intros E2. injection E2 as <- _.
    rewrite (proj2 (proj1 (fit_dict env _ _ _ _ _ _ _ E))). exact Hh.
Qed.
Print Assumptions C71_ipopt_refuted.
(** such a history exists *)
Example C71_case : exists m, snd (wstep ppR (wrun ppR world0 [WNew (prmR OIpopt) None]) (WFit 0 X32R (f0 YNone))) = Some (Ok m).
Proof. eexists. cbn [wrun wstep]. reflexivity. Qed.
Example C71_grid_case : exists m, snd (wstep ppR (wrun ppR world0 [WNew prmG None; WNew (prmR OIpopt) None]) (WFit 0 I3 (f0 YNone))) = Some (Ok m) /\
  grid_options (nth 0 (w_heap (wrun ppR world0 [WNew prmG None; WNew (prmR OIpopt) None])) []) <> nth 0 (w_heap (wrun ppR world0 [WNew prmG None; WNew (prmR OIpopt) None])) [].
Proof.
  destruct C69_three_columns as (m & E & _). exists m.
  replace (wrun ppR world0 [WNew prmG None; WNew (prmR OIpopt) None]) with (mk_world [default_options] [(prmG, 0%nat); (prmR OIpopt, 0%nat)]) by reflexivity.
  split; [|discriminate]. cbn [wstep w_inst nth_error w_heap nth]. rewrite E. reflexivity.
Qed.
