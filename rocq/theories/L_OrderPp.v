(** Projection pursuit with the cases in another order. *)

From Coq Require Import String Reals List Arith ZArith Bool Lia Lra Permutation FunctionalExtensionality.
Import List. Import ListNotations.
From Verif Require Import Num Err Vec VecR OrdR L_Mat L_Matmul S_Stats L_Stats L_Scaling2 S_Order L_Order M_Utils M_Preproc M_Robcent L_OrderSc M_Dicomo L_OrderDi M_Ipopt M_Ppdire M_Capi M_SdrUtils S_Sudire S_OrderSd
  L_OrderSd L_OrderSf L_Pp S_OrderPp.
Import List. Open Scope R_scope.

Section Order.
  Variables (n : nat) (o : list nat).
  Hypothesis Ho : case_order n o.
  Hypothesis Hn : (0 < n)%nat.
  Variable most : arr R -> dkw R -> res R.
  Hypothesis HM : index_order_free most.
  Variable kw : dkw R.
  Hypothesis Hy : forall y, k_y kw = Some y -> cases n y.
  Hypothesis Hm : forall d, k_metric kw = Some d -> symmetric_metric d.
  Let kwo := kw_reorder o kw.

  Lemma most_A1 : forall v, length v = n -> most (A1 (reorder o v)) kwo = most (A1 v) kw.
  Proof. intros v Hv. apply (HM n o (A1 v) kw); auto. Qed.
  Lemma as_col_reorder : forall v, as_col (A := R) (reorder o v) = areorder o (as_col v).
  Proof. intros v. unfold as_col. cbn [areorder]. rewrite reorder_map. reflexivity. Qed.
  Lemma as_col_cases : forall v, length v = n -> cases n (as_col (A := R) v).
  Proof. intros v Hv. exists 1%nat. split; [rewrite map_length; auto|]. apply Forall_forall. intros r Hr. apply in_map_iff in Hr as [a [<- _]]. reflexivity. Qed.
  Lemma most_col : forall v, length v = n -> most (as_col (reorder o v)) kwo = most (as_col v) kw.
  Proof. intros v Hv. rewrite as_col_reorder. apply (HM n o); auto. apply as_col_cases; auto. Qed.

  Definition gre (g : gargs R) : gargs R := mk_gargs (ga_ndir g) (ga_range g) (ga_alphamat g) (ga_square g) (ga_stops g) kwo.
  Variable tr : trig R.
  Lemma measures_order : forall g X dirs, ga_kw g = kw -> length X = n -> measures most (gre g) (reorder o X) dirs = measures most g X dirs.
  Proof.
    intros g X dirs Hg HX. unfold measures. apply mapM_ext_in. intros d _. unfold project. rewrite reorder_matvec. cbn [gre ga_kw ga_square]. rewrite most_A1, Hg; auto. unfold matvec. rewrite map_length. auto.
  Qed.
  Lemma two_columns_order : forall X : list (list R), length X = n -> two_columns (reorder o X) = two_columns X.
  Proof. intros X HX. unfold two_columns. symmetry. apply forallb_perm, (reorder_perm n); auto. Qed.
  Lemma gridplane_order : forall g X, ga_kw g = kw -> length X = n -> gridplane tr most (reorder o X) (gre g) = gridplane tr most X g.
  Proof.
    intros g X Hg HX. unfold gridplane. cbn [gre ga_alphamat ga_range ga_ndir]. destruct (ga_alphamat g); try reflexivity. destruct (stops tr (ga_range g)) as [[[a b] c] d]. cbv zeta.
    rewrite two_columns_order, measures_order by auto. reflexivity.
  Qed.
  Lemma gridplane_2_order : forall g X q, ga_kw g = kw -> length X = n -> gridplane_2 tr most (reorder o X) q (gre g) = gridplane_2 tr most X q g.
  Proof.
    intros g X q Hg HX. unfold gridplane_2. cbn [gre ga_alphamat ga_range ga_ndir ga_stops]. destruct (ga_alphamat g); try reflexivity. destruct (ga_stops g) as [[[a b] c] d]. cbv zeta.
    rewrite two_columns_order, measures_order by auto. reflexivity.
  Qed.

  Variables (q : nat) (E : list (list R)).
  Hypothesis WE : wf n q E.
  Lemma LE : length E = n. Proof. eapply wf_length; eauto. Qed.
  Lemma ncols_reorder : ncols (reorder o E) = ncols E.
  Proof. assert (WO : wf n q (reorder o E)) by (apply reorder_wf; auto). rewrite (wf_ncols n q _ WE), (wf_ncols n q _ WO); auto. Qed.
  Lemma getcol_order : forall k, getcol (reorder o E) k = rres (reorder o) (getcol E k).
  Proof. intros k. unfold getcol. rewrite ncols_reorder. destruct (k <? ncols E)%nat; [|reflexivity]. cbn [rres]. rewrite reorder_col. reflexivity. Qed.
  Lemma getcol_length : forall k c, getcol E k = Ok c -> length c = n.
  Proof. intros k c. unfold getcol. destruct (k <? ncols E)%nat; [|discriminate]. intros H. apply Ok_inj in H. subst c. rewrite col_length. apply LE. Qed.
  Lemma stack2_order : forall u v : list R, length u = n -> length v = n -> stack2 (reorder o u) (reorder o v) = reorder o (stack2 u v) /\ length (stack2 u v) = n.
  Proof. intros u v Hu Hv. unfold stack2. rewrite <- (reorder_map2 _ n), map2_length by auto. split; [reflexivity|lia]. Qed.
  Lemma blend_order : forall w0 w1 (u v : list R), length u = n -> length v = n -> blend w0 w1 (reorder o u) (reorder o v) = reorder o (blend w0 w1 u v) /\ length (blend w0 w1 u v) = n.
  Proof.
    intros w0 w1 u v Hu Hv. unfold blend, vadd, vscale. rewrite <- !reorder_map, <- (reorder_map2 _ n), map2_length by (auto; rewrite map_length; auto). rewrite !map_length. split; [reflexivity|lia].
  Qed.
  Lemma sweep1_order : forall g js z a, ga_kw g = kw -> length z = n ->
    sweep1 tr most (gre g) (reorder o E) js (reorder o z) a = rres (fun '(z, a) => (reorder o z, a)) (sweep1 tr most g E js z a) /\
    forall z' a', sweep1 tr most g E js z a = Ok (z', a') -> length z' = n.
  Proof.
    intros g js. induction js as [|j js IH]; intros z a Hg Hz; cbn [sweep1]; [split; [reflexivity|intros z' a' H; apply Ok_inj in H; injection H as <- <-; auto]|].
    rewrite getcol_order. destruct (getcol E j) as [c|e] eqn:Ec; cbn [rres bind]; [|split; [reflexivity|discriminate]]. apply getcol_length in Ec as Lc.
    destruct (stack2_order z c Hz Lc) as [-> LS]. rewrite gridplane_order by auto. destruct (gridplane tr most (stack2 z c) g) as [[[w0 w1] v]|e]; cbn [rres bind]; [|split; [reflexivity|discriminate]].
    destruct (blend_order w0 w1 z c Hz Lc) as [-> LB]. apply IH; auto.
  Qed.
  Lemma sweep2_order : forall g js z a, ga_kw g = kw -> length z = n ->
    sweep2 tr most (gre g) (reorder o E) js (reorder o z) a = rres (fun '(z, a) => (reorder o z, a)) (sweep2 tr most g E js z a) /\
    forall z' a', sweep2 tr most g E js z a = Ok (z', a') -> length z' = n.
  Proof.
    intros g js. induction js as [|j js IH]; intros z a Hg Hz; cbn [sweep2]; [split; [reflexivity|intros z' a' H; apply Ok_inj in H; injection H as <- <-; auto]|].
    rewrite getcol_order. destruct (getcol E j) as [c|e] eqn:Ec; cbn [rres bind]; [|split; [reflexivity|discriminate]]. apply getcol_length in Ec as Lc.
    destruct (stack2_order z c Hz Lc) as [-> LS]. rewrite gridplane_2_order by auto. destruct (gridplane_2 tr most (stack2 z c) (nth j a n0) g) as [[[w0 w1] v]|e]; cbn [rres bind]; [|split; [reflexivity|discriminate]].
    destruct (blend_order w0 w1 z c Hz Lc) as [-> LB]. apply IH; auto.
  Qed.
  Lemma npdot_order : forall a, npdot (reorder o E) a = rres (reorder o) (npdot E a).
  Proof. intros a. unfold npdot. rewrite ncols_reorder. destruct (ncols E =? length a)%nat; [|reflexivity]. cbn [rres]. rewrite reorder_matvec. reflexivity. Qed.
  Lemma npdot_length : forall a t, npdot E a = Ok t -> length t = n.
  Proof. intros a t. unfold npdot. destruct (ncols E =? length a)%nat; [|discriminate]. intros H. apply Ok_inj in H. subst t. unfold matvec. rewrite map_length. apply LE. Qed.
  Lemma objective_order : forall g a, ga_kw g = kw -> objective most (gre g) (reorder o E) a = objective most g E a.
  Proof.
    intros g a Hg. unfold objective. rewrite npdot_order. destruct (npdot E a) as [t|e] eqn:Et; cbn [rres bind]; [|reflexivity]. cbn [gre ga_kw ga_square]. rewrite most_col, Hg; [reflexivity|]. apply (npdot_length _ _ Et).
  Qed.
  Lemma refine_order : forall fuel g z a f0 f1, ga_kw g = kw -> length z = n ->
    refine tr most fuel (gre g) (reorder o E) (reorder o z) a f0 f1 = rres (fun '(z, a, v) => (reorder o z, a, v)) (refine tr most fuel g E z a f0 f1).
  Proof.
    induction fuel as [|fuel IH]; intros g z a f0 f1 Hg Hz; cbn [refine]; [reflexivity|]. destruct (nltb _ _); [|reflexivity].
    destruct (sweep2_order g (seq 0 (length a)) z a Hg Hz) as [-> HL]. destruct (sweep2 tr most g E (seq 0 (length a)) z a) as [[z' a']|e]; cbn [rres bind]; [|reflexivity].
    rewrite objective_order by auto. destruct (objective most g E a') as [v|e]; cbn [bind]; [|reflexivity]. apply IH; auto. apply (HL z' a'); reflexivity.
  Qed.
  Lemma first_sweep_order : forall g p, ga_kw g = kw ->
    first_sweep tr most (gre g) (reorder o E) p = rres (fun '(z, a) => (reorder o z, a)) (first_sweep tr most g E p) /\
    forall z a, first_sweep tr most g E p = Ok (z, a) -> length z = n.
  Proof.
    intros g p Hg. unfold first_sweep. rewrite <- reorder_map. assert (LF : length (map (firstn 2) E) = n) by (rewrite map_length; apply LE).
    rewrite gridplane_order by auto. destruct (gridplane tr most (map (firstn 2) E) g) as [[[w0 w1] v]|e]; cbn [rres bind]; [|split; [reflexivity|discriminate]].
    unfold project. rewrite reorder_matvec. apply sweep1_order; auto. unfold matvec. rewrite map_length. auto.
  Qed.
  Lemma grid_search_order : forall g g2 mi p, ga_kw g = kw -> ga_kw g2 = kw -> grid_search tr most (gre g) (gre g2) mi (reorder o E) p = grid_search tr most g g2 mi E p.
  Proof.
    intros g g2 mi p Hg Hg2. unfold grid_search.
    rewrite (mapM_ext_in _ (fun k => bind (getcol E k) (fun c => most (as_col c) (ga_kw g))) (seq 0 p)).
    2: { intros k _. rewrite getcol_order. destruct (getcol E k) as [c|e] eqn:Ec; cbn [rres bind]; [|reflexivity]. cbn [gre ga_kw]. rewrite most_col, Hg; auto. apply (getcol_length _ _ Ec). }
    destruct (mapM _ (seq 0 p)) as [u|e]; cbn [bind]; [|reflexivity].
    destruct (first_sweep_order g p Hg) as [-> HL]. destruct (first_sweep tr most g E p) as [[z a]|e]; cbn [rres bind]; [|reflexivity].
    rewrite objective_order by auto. destruct (objective most g E a) as [v|e]; cbn [bind]; [|reflexivity]. destruct (mi =? 0)%Z; [reflexivity|]. destruct (mi <? 0)%Z; [reflexivity|].
    rewrite refine_order by (auto; apply (HL z a); reflexivity). destruct (refine tr most _ g2 E z a v _) as [[[z' a'] v']|e]; reflexivity.
  Qed.
End Order.

(** ** one component *)
Definition cre (o : list nat) (c : pcomp R) : pcomp R := mk_pcomp (g_dir c) (g_w c) (reorder o (g_t c)) (g_p c) (g_max c) (g_crit c) (reorder o (g_E c)).
Definition yre (o : list nat) (y : yinfo R) : yinfo R := mk_yi (yi_kw y) (reorder o (yi_s y)) (reorder o (yi_0 y)) (yi_sca y).
Lemma index_kw_order : forall o prm bias ys, index_kw (A := R) prm bias (option_map (reorder o) ys) = kw_reorder o (index_kw prm bias ys).
Proof. intros o prm bias [ys|]; cbn [option_map]; unfold index_kw, kw_reorder; cbn; [|reflexivity]. unfold as_col. cbn [areorder]. rewrite reorder_map. reflexivity. Qed.

Section Loop.
  Variables (env : pp_env R) (prm : pparams R) (n : nat) (o : list nat).
  Hypothesis Ho : case_order n o.
  Hypothesis Hn : (0 < n)%nat.
  Variable most : arr R -> dkw R -> res R.
  Hypothesis HM : index_order_free most.
  Variable kw : dkw R.
  Hypothesis Hy : forall y, k_y kw = Some y -> cases n y.
  Hypothesis Hm : forall d, k_metric kw = Some d -> symmetric_metric d.
  Hypothesis HS : pp_optim prm <> OGrid -> start_free env (pp_optim prm).
  Hypothesis HR : regression_order_free (pe_rm env).
  Hypothesis HQ : regression_order_free (pe_qr env).

  Lemma pp_objective_order : forall q E x, wf n q E -> pp_objective most (kw_reorder o kw) (reorder o E) x = pp_objective most kw E x.
  Proof.
    intros q E x WE. unfold pp_objective. rewrite (npdot_order n o Ho Hn q E WE). destruct (npdot E x) as [t|e] eqn:Et; cbn [rres bind]; [|reflexivity].
    rewrite (most_col n o Ho most HM kw Hy Hm); auto. apply (npdot_length n q E WE _ _ Et).
  Qed.
  Lemma direction_order : forall d p q E, wf n q E -> direction env prm most (kw_reorder o kw) d p (reorder o E) = direction env prm most kw d p E.
  Proof.
    intros d p q E WE. assert (WO : wf n q (reorder o E)) by (apply reorder_wf; auto).
    assert (HX : exists x0 r x0' r', E = x0 :: r /\ reorder o E = x0' :: r' /\ length x0 = length x0').
    { pose proof (wf_length _ _ _ WE) as L1. pose proof (wf_length _ _ _ WO) as L2. destruct E as [|x0 r] eqn:EE; [cbn in L1; lia|]. destruct (reorder o (x0 :: r)) as [|x0' r'] eqn:EO; [cbn in L2; lia|].
      exists x0, r, x0', r'. repeat split; auto. rewrite (wf_row _ _ _ x0 WE (or_introl eq_refl)), (wf_row _ _ _ x0' WO (or_introl eq_refl)). reflexivity. }
    assert (EO : pp_objective most (kw_reorder o kw) (reorder o E) = pp_objective most kw E) by (apply functional_extensionality; intros x; apply (pp_objective_order q); auto).
    unfold direction. destruct (pp_optim prm) as [| | |meth] eqn:EP.
    - f_equal. destruct (opt_int "ndir" d) as [nd|e]; cbn [bind]; [|reflexivity]. destruct (opt_int "maxiter" d) as [mi|e]; cbn [bind]; [|reflexivity].
      pose proof (grid_search_order n o Ho Hn most HM kw Hy Hm (pe_trig env) q E WE (plane_args env prm kw (Z.to_nat nd) AmTuple) (plane_args env prm kw (Z.to_nat nd) AmArray) mi p eq_refl eq_refl) as G.
      change (gre o kw (plane_args env prm kw (Z.to_nat nd) AmTuple)) with (plane_args env prm (kw_reorder o kw) (Z.to_nat nd) AmTuple) in G.
      change (gre o kw (plane_args env prm kw (Z.to_nat nd) AmArray)) with (plane_args env prm (kw_reorder o kw) (Z.to_nat nd) AmArray) in G. rewrite G. reflexivity.
    - rewrite EO. destruct HX as (x0 & r & x0' & r' & -> & -> & HL). rewrite (HS ltac:(discriminate) d _ x0' x0 (eq_sym HL)). reflexivity.
    - rewrite EO. destruct HX as (x0 & r & x0' & r' & -> & -> & HL). rewrite (HS ltac:(discriminate) d _ x0' x0 (eq_sym HL)). reflexivity.
    - rewrite EO. destruct HX as (x0 & r & x0' & r' & -> & -> & HL). rewrite (HS ltac:(discriminate) d _ x0' x0 (eq_sym HL)). reflexivity.
  Qed.
  Lemma component_order : forall two K p q E wo, wf n q E ->
    component prm most (kw_reorder o kw) two K n p (reorder o E) wo = rres (cre o) (component prm most kw two K n p E wo) /\
    forall c, component prm most kw two K n p E wo = Ok c -> length (g_t c) = n /\ wf n q (g_E c).
  Proof.
    intros two K p q E [wi om] WE. unfold component. rewrite (npdot_order n o Ho Hn q E WE). destruct (npdot E wi) as [t|e] eqn:Et; cbn [rres bind]; [|split; [reflexivity|discriminate]].
    pose proof (npdot_length n q E WE _ _ Et) as Lt.
    assert (Em : match om with Some v => Ok v | None => most (as_col (reorder o t)) (kw_reorder o kw) end = match om with Some v => Ok v | None => most (as_col t) kw end).
    { destruct om; [reflexivity|]. apply (most_col n o Ho most HM kw Hy Hm); auto. }
    rewrite Em. destruct (match om with Some v => Ok v | None => most (as_col t) kw end) as [mx|e]; cbn [rres bind]; [|split; [reflexivity|discriminate]]. cbv zeta.
    replace (vnorm (reorder o t)) with (vnorm t) by (unfold vnorm; change (vsum (map nsqr (reorder o t))) with (vsqnorm (reorder o t)); rewrite (reorder_sqnorm n) by auto; reflexivity).
    rewrite (reorder_tmatvec n q o E t Ho WE Hn Lt). set (pl := map (fun v => ndiv v _) (tmatvec E t)). set (w := match K with None => wi | Some K' => _ end).
    rewrite (reorder_length n) by auto. rewrite Lt.
    assert (Lp : length pl = q) by (unfold pl; rewrite map_length; apply (L_Lin.tmatvec_length n q); auto).
    destruct (negb _); [split; [reflexivity|discriminate]|].
    assert (WO : wf n q (outer t pl)) by (rewrite <- Lt, <- Lp; apply L_Lin.wf_outer).
    assert (EE : msub (reorder o E) (outer (reorder o t) pl) = reorder o (msub E (outer t pl))).
    { rewrite reorder_outer, (reorder_msub n); auto; [apply (wf_length _ _ _ WE)|apply (wf_length _ _ _ WO)]. }
    assert (WM : wf n q (msub E (outer t pl))) by (apply L_Lin.wf_msub; auto).
    rewrite (npdot_order n o Ho Hn q E WE). destruct two.
    - destruct (npdot E w) as [tw|e] eqn:Ew; cbn [rres bind]; [|split; [reflexivity|discriminate]]. rewrite (most_col n o Ho most HM kw Hy Hm) by (apply (npdot_length n q E WE _ _ Ew)).
      destruct (most (as_col tw) kw) as [v|e]; cbn [rres bind]; [|split; [reflexivity|discriminate]]. rewrite EE. split; [reflexivity|]. intros c Hc. apply Ok_inj in Hc. subst c. auto.
    - cbn [bind rres]. rewrite EE. split; [reflexivity|]. intros c Hc. apply Ok_inj in Hc. subst c. auto.
  Qed.
  Lemma inner_coef_order : forall kwy ys y t, length ys = n -> length y = n -> length t = n -> inner_coef env prm kwy (reorder o ys) (reorder o y) (reorder o t) = inner_coef env prm kwy ys y t.
  Proof.
    intros kwy ys y t Ls Ly Lt. unfold inner_coef. destruct (_ =? "OLS")%string.
    { rewrite (reorder_dot n) by auto. replace (vnorm (reorder o t)) with (vnorm t); [reflexivity|]. unfold vnorm. change (vsum (map nsqr (reorder o t))) with (vsqnorm (reorder o t)). rewrite (reorder_sqnorm n) by auto. reflexivity. }
    destruct (_ =? "robust")%string; [destruct kwy; [|reflexivity]; rewrite (HR n) by auto; reflexivity|].
    destruct (_ =? "quantile")%string; [destruct kwy; [|reflexivity]; rewrite (HQ n) by auto; reflexivity|]. reflexivity.
  Qed.
  Lemma rotations_order : forall p cs, rotations env p (map (cre o) cs) = rotations env p cs.
  Proof. intros p cs. unfold rotations. rewrite !map_map. reflexivity. Qed.
  Lemma pp_loop_order : forall k yi K p q sX d E cs yc R0, wf n q E -> (forall y, yi = Some y -> length (yi_s y) = n /\ length (yi_0 y) = n) -> Forall (fun c => length (g_t c) = n) cs ->
    (pp_loop env k prm most (kw_reorder o kw) (option_map (yre o) yi) K n p sX d (reorder o E) (map (cre o) cs) yc R0 =
    (let '(d', r) := pp_loop env k prm most kw yi K n p sX d E cs yc R0 in (d', rres (fun '(cs, yc, R0) => (map (cre o) cs, yc, R0)) r))) /\
    forall d' cs' yc' R', pp_loop env k prm most kw yi K n p sX d E cs yc R0 = (d', Ok (cs', yc', R')) -> Forall (fun c => length (g_t c) = n) cs'.
  Proof.
    induction k as [|k IH]; intros yi K p q sX d E cs yc R0 WE HY HC; cbn [pp_loop]; [split; [reflexivity|intros d' cs' yc' R' H; injection H as <- <- <- <-; auto]|].
    rewrite (direction_order d p q E WE). destruct (direction env prm most kw d p E) as [d' [wo|e]]; cbn [bind]; [|split; [reflexivity|discriminate]].
    replace (match option_map (yre o) yi with Some _ => true | None => false end) with (match yi with Some _ => true | None => false end) by (destruct yi; reflexivity).
    destruct (component_order (match yi with Some _ => true | None => false end) K p q E wo WE) as [-> HCo].
    destruct (component prm most kw (match yi with Some _ => true | None => false end) K n p E wo) as [c|e]; cbn [rres bind]; [|split; [reflexivity|discriminate]].
    destruct (HCo c eq_refl) as [Lc Wc]. replace (map (cre o) cs ++ [cre o c])%list with (map (cre o) (cs ++ [c])) by (rewrite map_app; reflexivity). rewrite rotations_order.
    destruct (rotations env p (cs ++ [c])) as [R'|e]; cbn [bind]; [|split; [reflexivity|discriminate]].
    assert (HC' : Forall (fun c => length (g_t c) = n) (cs ++ [c])) by (apply Forall_app; split; auto).
    destruct yi as [y|]; cbn [option_map].
    - destruct (HY y eq_refl) as [Ls Ly]. cbn [yre yi_kw yi_s yi_0 yi_sca]. change (g_t (cre o c)) with (reorder o (g_t c)). rewrite inner_coef_order by auto.
      destruct (inner_coef env prm (yi_kw y) (yi_s y) (yi_0 y) (g_t c)) as [ci|e]; cbn [bind]; [|split; [reflexivity|discriminate]]. cbv zeta.
      destruct (negb _); [split; [reflexivity|discriminate]|]. cbn [bind]. change (g_E (cre o c)) with (reorder o (g_E c)). apply (IH (Some y) K p q); auto.
    - cbn [bind]. change (g_E (cre o c)) with (reorder o (g_E c)). apply (IH None K p q); auto.
  Qed.
End Loop.

(** ** scaling and the response *)
Lemma pp_scaled_order : forall (env : pp_env R) c s t n p o X, c = CMean \/ c = CMedian -> documented_scale s -> case_order n o -> wf n p X -> (2 <= n)%nat ->
  pp_scaled env c s t (reorder o X) = rres (fun '(m, v, Z) => (m, v, reorder o Z)) (pp_scaled env c s t X) /\
  forall m v Z, pp_scaled env c s t X = Ok (m, v, Z) -> wf n p Z.
Proof.
  intros env c s t n p o X Hc Hs Ho W Hn. assert (WO : wf n p (reorder o X)) by (apply reorder_wf; auto).
  assert (HP : Permutation X (reorder o X)) by (apply (reorder_perm n); auto; eapply wf_length; eauto).
  assert (EF : sc_fit (pe_prep env) (new_scaler c s t) (A2 (reorder o X)) = sc_fit (pe_prep env) (new_scaler c s t) (A2 X)).
  { unfold sc_fit. rewrite (check_input_rows n p X), (check_input_rows n p (reorder o X)) by auto. cbn [new_scaler sc_center sc_scale sc_trimming].
    rewrite <- (scale_est_perm (pe_prep env) s t n p X (reorder o X)) by (auto; lia).
    destruct Hc as [-> | ->]; cbn [location]; [rewrite <- (mean_perm n p t X (reorder o X)) by (auto; lia)|rewrite <- (median_perm n p X (reorder o X)) by (auto; lia)]; reflexivity. }
  unfold pp_scaled, sc_fit_transform. rewrite EF. destruct (sc_fit _ (new_scaler c s t) (A2 X)) as [st1 [u|e]]; [|split; [reflexivity|discriminate]].
  unfold sc_transform. rewrite (check_input_rows n p X), (check_input_rows n p (reorder o X)) by auto.
  destruct (a_center st1) as [m|]; [|split; [reflexivity|discriminate]]. destruct (a_scale st1) as [v|]; [|split; [reflexivity|discriminate]]. rewrite (reorder_scale_data n p) by (auto; lia).
  destruct (scale_data X m v) as [Z|e] eqn:EZ; [|split; [reflexivity|discriminate]]. cbn. destruct (a_col_loc st1); [|split; [reflexivity|discriminate]]. destruct (a_col_sca st1); [|split; [reflexivity|discriminate]].
  split; [reflexivity|]. intros m' v' Z' H. injection H as _ _ <-. apply (L_Snipls.scale_data_wf n p X Z m v); auto; lia.
Qed.
